(** Final theorems about HarrisHawksOptimization (C75), ArtificialBeeColonyAlgorithm (C76), MonarchButterflyOptimization (C77),
    ForestOptimizationAlgorithm (C78) and CatSwarmOptimization (C79). *)
From Coq Require Import ZArith Lia Bool List Permutation Sorting.Sorted.
From Verif Require Import Num Task TaskSpec TaskProofs TaskProofs2 Prog Wp GetBest Run RunSpec RunProofs RunProofs2
  AlgoLib Fops AlgTac StepSpec StepLib Indiv IndivLib AlgPSO AlgPSOProofs AlgSwarm PopLib AlgSwarmProofs Reach SortLib AlgBasic AlgBasic2 Repair B64 ExLib ExLib2
  Det AlgBasic2Proofs B64Int Endless PropertiesBasic.
Import ListNotations.

(** the best value reported never gets worse, and after every iteration it is at most every fitness of the population *)
Definition leads (s s' : snap) : Prop := fleb (snd s') (snd s) = true /\ forall g, In g (fst (fst s')) -> fleb (snd s') g = true.

(** ** C75: HarrisHawksOptimization *)
Theorem C75_hho : forall F E p, let C := e_cfg E in
  cfg_ok C -> no_nan (e_prob E) -> repair_ok E -> 0 < hh_n p ->
  sound_run E (hho F C p) /\ sizes_ok (fun n => n = hh_n p) E (hho F C p) /\ steps_ok leads E (hho F C p).
Proof.
  intros F E p C HC Hn Hr Hp.
  assert (G1 := hho_init_c C p HC Hp (fun _ => False) (hho_iter F C p)).
  assert (G3 : iter_r (KBX C (fun _ => False)) (hho F C p) (fun pop fit xb fxb _ l => PopSeen C (hh_n p) pop fit xb fxb l) leads).
  { intros pop fit xb fxb u l H. eapply wp_conseq0; [apply (hho_iter_c F C p HC Hp (fun _ => False) pop fit xb fxb u l H)|].
    intros [[[[pop' fit'] xb'] fxb'] u'] l' (H1 & H2 & H3). split; auto. split; auto. }
  split; [|split].
  - eapply (sound_run_c (inside C) (fun _ => False) E (hho F C p)); [auto|auto|auto|exact G1|apply (iter_r_c _ _ _ _ G3)|].
    intros pop fit xb fxb u l H. split; apply H.
  - eapply (sizes_c (inside C) (fun _ => False) _ E (hho F C p)); [auto|auto|exact G1|apply (iter_r_c _ _ _ _ G3)|]. intros pop fit xb fxb u l H. apply H.
  - exact (steps_c (inside C) (fun _ => False) leads E (hho F C p) _ Hn Hr G1 G3).
Qed.
(** for a problem that is a function of the point, a repair that leaves feasible points alone and a run that neither limit on
    the evaluations nor the cutoff value ends, the result is the best point evaluated *)
Theorem C75_full : forall F E p g, let C := e_cfg E in
  cfg_ok C -> no_nan (e_prob E) -> repair_ok E -> 0 < hh_n p -> deterministic g E -> keeps_inside E -> lim_reached 0 (c_max_iters C) = false ->
  full_run_x (fun _ => False) E (hho F C p).
Proof.
  intros F E p g C HC Hn Hr Hp Hg Hk Hm.
  eapply (full_run_intro (fun x y => inside C x -> y = x) (fun x v => v = sgn (c_opt C) (g x)) (inside C) (fun _ => False) E (hho F C p)); auto.
  - intros h x v Hv. rewrite (Hg _ _ _ Hv). reflexivity.
  - apply algo_ok_c; [apply (hho_init_d C p HC Hp (fun x => sgn (c_opt C) (g x)))|apply (hho_iter_d F C p HC Hp (fun x => sgn (c_opt C) (g x)))].
  - intros s l H. split; apply H.
Qed.
(** what hawk i does (hho.py:119-164), y being its position before the final repair *)
Definition dive_eq (E : env) (F : fops) (p : hho_par) (x : vec) (f : num) (target y : vec) (l l' : elog) : Prop := let d := c_dim (e_cfg E) in
  exists c1 c2 r u v f1 l1, repaired E target c1 /\ length r = d /\ Forall in_unit r /\ length u = d /\ length v = d /\
    (exists t, comps d t (fun k c => c = fadd F (nth k c1 NaN) (fmul F (nth k r NaN) (levy_a F (hh_levy p) (nth k u NaN) (nth k v NaN)))) /\ repaired E t c2) /\
    evaluated c1 f1 l l1 /\
    ((fltb f1 f = true /\ y = c1 /\ l' = l1) \/
     (fltb f1 f = false /\ exists f2, evaluated c2 f2 l1 l' /\ y = if fltb f2 f then c2 else x)).
Definition hawk_eq (E : env) (F : fops) (p : hho_par) (fac mean : num) (xb : vec) (pop : list vec) (fit : list num) (i : nat) (y : vec) (l l' : elog) : Prop :=
  let C := e_cfg E in let d := c_dim C in let half := flit F 1 2 in let one := flit F 1 1 in
  exists x jump u r, nth_error pop i = Some x /\ in_unit r /\
    (fleb (flit F 0 1) (flit F 2 1) = true -> fleb (flit F 0 1) jump = true /\ fleb jump (flit F 2 1) = true) /\
    (fleb (flit F (-1) 1) one = true -> fleb (flit F (-1) 1) u = true /\ fleb u one = true) /\
    let e := fmul F fac u in let ea := fabs F e in
    (* a random hawk *)
    ((fleb one e = true /\ fleb half r = true /\ l' = l /\ exists h z a b, h < hh_n p /\ nth_error pop h = Some z /\ in_unit a /\ in_unit b /\
        comps d y (fun k c => c = fsub F (nth k z NaN) (fmul F a (fabs F (fsub F (nth k z NaN) (fmul F (fmul F (flit F 2 1) b) (nth k x NaN))))))) \/
    (* away from the mean of all components *)
     (fleb one ea = true /\ fltb r half = true /\ l' = l /\ exists a z, in_unit a /\ inside C z /\
        comps d y (fun k c => c = fsub F (fsub F (nth k xb NaN) mean) (fmul F a (nth k z NaN)))) \/
    (* soft siege; e <= -1 comes here too *)
     (andb (fleb one e) (fleb half r) = false /\ fleb half ea = true /\ fleb half r = true /\ l' = l /\
        comps d y (fun k c => c = fsub F (fsub F (nth k xb NaN) (nth k x NaN)) (fmul F e (fabs F (fsub F (fmul F jump (nth k xb NaN)) (nth k x NaN)))))) \/
    (* hard siege *)
     (fltb ea half = true /\ fleb half r = true /\ l' = l /\
        comps d y (fun k c => c = fsub F (nth k xb NaN) (fmul F e (fabs F (fsub F (nth k xb NaN) (nth k x NaN)))))) \/
    (* soft siege with dives *)
     (fleb one ea = false /\ fleb half ea = true /\ fltb r half = true /\ exists f t, nth_error fit i = Some f /\
        comps d t (fun k c => c = fsub F (nth k xb NaN) (fmul F e (fabs F (fsub F (fmul F jump (nth k xb NaN)) (nth k x NaN))))) /\ dive_eq E F p x f t y l l') \/
    (* hard siege with dives *)
     (fltb ea half = true /\ fltb r half = true /\ exists f t, nth_error fit i = Some f /\
        comps d t (fun k c => c = fsub F (nth k xb NaN) (fmul F e (fabs F (fsub F (fmul F jump (nth k xb NaN)) mean)))) /\ dive_eq E F p x f t y l l') \/
    (* the arithmetic gives no case *)
     (y = x /\ l' = l /\ andb (fleb one e) (fleb half r) = false /\ andb (fleb one ea) (fltb r half) = false /\ andb (fleb half ea) (fleb half r) = false /\
        andb (fltb ea half) (fleb half r) = false /\ andb (fleb half ea) (fltb r half) = false /\ andb (fltb ea half) (fltb r half) = false)).
Lemma w_dive_tr : forall E F p x f t (Q : vec -> elog -> Prop) l, let C := e_cfg E in repair_ok E -> cfg_ok C -> length t = c_dim C ->
  (forall y l', dive_eq E F p x f t y l l' -> Q y l') -> wp (K_tr E) (hho_dive F C p x f t) Q l.
Proof.
  intros E F p x f t Q l C Hr HC Lt HQ. unfold hho_dive. apply wp_bind. apply w_repair_tr. intros c1 H1.
  assert (L1 : length c1 = c_dim C) by (destruct H1 as (k & ->); apply inside_len; auto; apply Hr; auto).
  apply wp_bind. apply w_random_vec_u. intros r Lr Hu. apply wp_bind. unfold levy_vec_a. apply wp_bind. apply w_rnd_f_vec. intros u Lu. apply wp_bind. apply w_rnd_f_vec. intros v Lv.
  apply w_done. apply wp_bind. apply w_repair_tr. intros c2 H2. apply wp_bind. apply w_eval_tr. intros f1 l1 E1.
  assert (G : exists t, comps (c_dim C) t (fun k c => c = fadd F (nth k c1 NaN) (fmul F (nth k r NaN) (levy_a F (hh_levy p) (nth k u NaN) (nth k v NaN)))) /\ repaired E t c2).
  { eexists. split; [|exact H2]. split; [dl|]. intros k Hk. nths (c_dim C). reflexivity. }
  destruct (fltb f1 f) eqn:Q1.
  - apply w_done. apply HQ. exists c1, c2, r, u, v, f1, l1. repeat (split; [assumption|]). left. auto.
  - apply wp_bind. apply w_eval_tr. intros f2 l2 E2. apply w_done. apply HQ. exists c1, c2, r, u, v, f1, l1. repeat (split; [assumption|]). right. split; auto. exists f2. auto.
Qed.
Theorem C75_move : forall F E p fac mean xb pop fit i y wd wd', let C := e_cfg E in
  cfg_ok C -> repair_ok E -> Forall (fun x => length x = c_dim C) (xb :: pop) ->
  exec E (hho_move F C p fac mean xb pop fit i) wd = (Ret y, wd') ->
  hawk_eq E F p fac mean xb pop fit i y (log_of (c_opt C) (w_h wd)) (log_of (c_opt C) (w_h wd')).
Proof.
  intros F E p fac mean xb pop fit i y wd wd' C HC Hr D Ex. set (l := log_of (c_opt C) (w_h wd)). inversion D as [|? ? D1 D2]; subst.
  apply (tr_sound _ E _ (fun y l' => hawk_eq E F p fac mean xb pop fit i y l l') _ _ _) in Ex; [exact Ex|]. fold C l. unfold hho_move. cbv zeta.
  apply wp_bind. apply w_uniform. intros jump Hj. apply wp_bind. apply w_uniform. intros u Hu. apply wp_bind. apply w_random_u. intros r Ur. apply wp_bind. apply w_nthP_tr. intros x Exx.
  assert (Lx : length x = c_dim C) by (eapply dims_nth; eauto). unfold hawk_eq. cbv zeta. fold C. set (e := fmul F fac u). set (ea := fabs F e). set (half := flit F 1 2) in *. set (one := flit F 1 1) in *.
  destruct (fleb one e && fleb half r) eqn:B1.
  { apply andb_true_iff in B1. destruct B1. apply wp_bind. apply wp_conseq0 with (Q := fun h l' => l' = l /\ h < hh_n p).
    { destruct (hh_n p) eqn:En; [exact I|]. rewrite <- En. apply w_integers; [lia|]. auto. }
    intros h l' [-> Hh]. apply wp_bind. apply w_nthP_tr. intros z Ez. assert (Lz : length z = c_dim C) by (eapply dims_nth; eauto).
    apply wp_bind. apply w_random_u. intros a Ua. apply wp_bind. apply w_random_u. intros b Ub. apply w_done.
    exists x, jump, u, r. repeat (split; [assumption|]). left. repeat (split; [solve [auto]|]). exists h, z, a, b. repeat (split; [assumption|]). split; [dl|]. intros k Hk. nths (c_dim C). reflexivity. }
  destruct (fleb one ea && fltb r half) eqn:B2.
  { apply andb_true_iff in B2. destruct B2. apply wp_bind. apply w_random_u. intros a Ua. apply wp_bind. apply w_uniform_pt; auto. intros z Hz. assert (Lz := inside_len _ _ HC Hz). apply w_done.
    exists x, jump, u, r. repeat (split; [assumption|]). right. left. repeat (split; [solve [auto]|]). exists a, z. repeat (split; [assumption|]). split; [dl|]. intros k Hk. nths (c_dim C). reflexivity. }
  destruct (fleb half ea && fleb half r) eqn:B3.
  { apply andb_true_iff in B3. destruct B3. apply w_done. exists x, jump, u, r. repeat (split; [assumption|]). right. right. left. repeat (split; [solve [auto]|]). split; [dl|]. intros k Hk. nths (c_dim C). reflexivity. }
  destruct (fltb ea half && fleb half r) eqn:B4.
  { apply andb_true_iff in B4. destruct B4. apply w_done. exists x, jump, u, r. repeat (split; [assumption|]). right. right. right. left. repeat (split; [solve [auto]|]). split; [dl|]. intros k Hk. nths (c_dim C). reflexivity. }
  destruct (fleb half ea && fltb r half) eqn:B5.
  { apply andb_true_iff in B5. destruct B5 as [B5 B6]. apply wp_bind. apply w_nthP_tr. intros f Ef. apply w_dive_tr; auto; [dl|]. intros y0 l' Hd. exists x, jump, u, r. repeat (split; [assumption|]).
    right. right. right. right. left. split; [rewrite B6, andb_true_r in B2; auto|]. repeat (split; [solve [auto]|]). exists f. eexists. split; [exact Ef|]. split; [|exact Hd]. split; [dl|]. intros k Hk. nths (c_dim C). reflexivity. }
  destruct (fltb ea half && fltb r half) eqn:B6.
  { apply andb_true_iff in B6. destruct B6. apply wp_bind. apply w_nthP_tr. intros f Ef. apply w_dive_tr; auto; [dl|]. intros y0 l' Hd. exists x, jump, u, r. repeat (split; [assumption|]).
    right. right. right. right. right. left. repeat (split; [solve [auto]|]). exists f. eexists. split; [exact Ef|]. split; [|exact Hd]. split; [dl|]. intros k Hk. nths (c_dim C). reflexivity. }
  apply w_done. exists x, jump, u, r. repeat (split; [assumption|]). right. right. right. right. right. right. repeat (split; [solve [auto]|]). auto.
Qed.
(** one iteration: the energy factor falls with the iterations, the mean is taken before the hawks move, each hawk moves,
    is repaired and evaluated, and the best point changes only for a strictly better one *)
Theorem C75_iter : forall F E p pop fit xb fxb wd, let C := e_cfg E in
  let fac := fmul F (flit F 2 1) (fsub F (flit F 1 1) (fdiv F (fnat F (S (t_iters (w_ts wd)))) (flim F (c_max_iters C)))) in
  exec E (hho_iter F C p pop fit xb fxb tt) wd =
  exec E (let* (pop', fit') := for_range (hh_n p) (fun s i =>
            let* x := hho_move F C p fac (vmean F (concat pop)) xb (fst s) (snd s) i in
            let* y := repair x in
            let* pop1 := setP (fst s) i y in
            let* f := eval y in
            let* fit1 := setP (snd s) i f in
            Done (pop1, fit1)) (pop, fit) in
          match argmin fit' with
          | None => Fail EValue
          | Some i => let* x := nthP pop' i in let* f := nthP fit' i in
                      Done (if fltb f fxb then (pop', fit', x, f, tt) else (pop', fit', xb, fxb, tt))
          end) wd.
Proof.
  intros. unfold hho_iter. rewrite exec_view. cbn [v_iters]. rewrite !exec_bind. unfold hho_step, mean_all, hho_factor. fold C fac.
  destruct (exec E (for_range _ _ _) wd) as [[[pop' fit']|e] w1]; [|reflexivity]. unfold take_best. destruct (argmin fit') as [i|]; [|reflexivity].
  rewrite !exec_bind. destruct (exec E (nthP pop' i) w1) as [[x|e] w2]; [|reflexivity]. rewrite !exec_bind. destruct (exec E (nthP fit' i) w2) as [[f|e] w3]; [|reflexivity].
  cbn [exec]. destruct (fltb f fxb); reflexivity.
Qed.

Lemma tr_env : forall E, env_ok (K_tr E) E.
Proof. intros E. split; simpl; auto; intros q0 x; exists q0; auto. Qed.
(** a program with any result *)
Lemma wp_any : forall E A (p : prog A) l, wp (K_tr E) p (fun _ _ => True) l.
Proof. intros E A. induction p; intros l; simpl; auto. Qed.

(** ** C76: ArtificialBeeColonyAlgorithm; food is the number of food sources, population_size // 2 *)
Theorem C76_abc : forall F E p fuel, let C := e_cfg E in
  cfg_ok C -> no_nan (e_prob E) -> repair_ok E -> 0 < ab_n p ->
  best_run_x (eq EIndex) E (abc F C p fuel) /\ sizes_ok (fun n => n = ab_n p) E (abc F C p fuel) /\
  (idx_ok F (c_dim C) -> idx_ok F (ab_food p) -> best_run E (abc F C p fuel)).
Proof.
  intros F E p fuel C HC Hn Hr Hp.
  assert (G : forall X : exn -> Prop, (idx_ok F (c_dim C) /\ (ab_food p = 0 \/ idx_ok F (ab_food p))) \/ X EIndex ->
    best_run_p (inside C) X E (abc F C p fuel) /\ sizes_ok (fun n => n = ab_n p) E (abc F C p fuel)).
  { intros X HX. refine (all2_c (inside C) X (fun n => n = ab_n p) E (abc F C p fuel) _ HC Hn Hr (abc_init_c F C p X HC HX fuel Hp) (abc_iter_c F C p X HC HX fuel) _).
    intros pop fit xb fxb tr l [[A1 A2 A3 A4 A5] ->]. cbn [co_pop co_xb co_fxb] in *. rewrite map_length. auto. }
  split; [|split].
  - apply (G (eq EIndex)). right. reflexivity.
  - apply (G (fun _ => True)). auto.
  - intros H1 H2. apply (G (fun _ => False)). auto.
Qed.
(** in binary64 no index is ever out of range, except that with a population of one nothing is ever drawn *)
Theorem C76_abc_64 : forall E p fuel, let C := e_cfg E in
  cfg_ok C -> no_nan (e_prob E) -> repair_ok E -> 0 < ab_n p -> 0 < c_dim C -> (Z.of_nat (c_dim C) <= 2 ^ 53)%Z -> (Z.of_nat (ab_n p) <= 2 ^ 53)%Z ->
  best_run E (abc b64ops C p fuel).
Proof.
  intros E p fuel C HC Hn Hr Hp Hd Hd2 Hn2.
  assert (HX : (idx_ok b64ops (c_dim C) /\ (ab_food p = 0 \/ idx_ok b64ops (ab_food p))) \/ (fun _ : exn => False) EIndex).
  { left. split; [apply idx_ok_64; auto|]. destruct (ab_food p) eqn:Ef; auto. right. rewrite <- Ef. assert (L : ab_food p <= ab_n p) by (unfold ab_food; apply Nat.div_le_upper_bound; lia). apply idx_ok_64; lia. }
  refine (proj1 (all2_c (inside C) (fun _ => False) (fun n => n = ab_n p) E (abc b64ops C p fuel) _ HC Hn Hr (abc_init_c b64ops C p _ HC HX fuel Hp) (abc_iter_c b64ops C p (fun _ => False) HC HX fuel) _)).
  intros pop fit xb fxb tr l [[A1 A2 A3 A4 A5] ->]. cbn [co_pop co_xb co_fxb] in *. rewrite map_length. auto.
Qed.
(** the candidate: one component k moves towards or away from the neighbour's *)
Definition candidate_eq (E : env) (F : fops) (x xn : vec) (k : nat) (y : vec) (f : num) (l l' : elog) : Prop :=
  exists a b u t, nth_error x k = Some a /\ nth_error xn k = Some b /\
    (fleb (flit F (-1) 1) (flit F 1 1) = true -> fleb (flit F (-1) 1) u = true /\ fleb u (flit F 1 1) = true) /\
    row_set x t k (fadd F a (fmul F u (fsub F a b))) /\ repaired E t y /\ evaluated y f l l'.
(** a strictly better source becomes the best point *)
Definition best_eq (xb : vec) (fxb : num) (x : vec) (f : num) (xb' : vec) (fxb' : num) : Prop :=
  xb' = (if fltb f fxb then x else xb) /\ fxb' = (if fltb f fxb then f else fxb).
(** what happens to source i, k being the source whose counter decides about a scout *)
Definition select_eq (E : env) (p : abc_par) (s : colony) (i k : nat) (y : vec) (f : num) (s' : colony) (l l' : elog) : Prop :=
  exists o, nth_error (co_pop s) i = Some o /\
   ((fltb f (snd o) = true /\ l' = l /\ row_set (co_pop s) (co_pop s') i (y, f) /\ row_set (co_tr s) (co_tr s') i 0%Z /\
       best_eq (co_xb s) (co_fxb s) y f (co_xb s') (co_fxb s')) \/
    (fltb f (snd o) = false /\ exists t tr tk, nth_error (co_tr s) i = Some t /\ row_set (co_tr s) tr i (t + 1)%Z /\ nth_error tr k = Some tk /\
       (((tk < ab_limit p)%Z /\ l' = l /\ co_pop s' = co_pop s /\ co_tr s' = tr /\ co_xb s' = co_xb s /\ co_fxb s' = co_fxb s) \/
        ((ab_limit p <= tk)%Z /\ exists z y1 f1, inside (e_cfg E) z /\ repaired E z y1 /\ evaluated y1 f1 l l' /\
           row_set (co_pop s) (co_pop s') k (y1, f1) /\ row_set tr (co_tr s') k 0%Z /\ best_eq (co_xb s) (co_fxb s) y1 f1 (co_xb s') (co_fxb s'))))).
Lemma best_eq_if : forall pop tr xb fxb x f, let s := if fltb f fxb then Colony pop tr x f else Colony pop tr xb fxb in
  co_pop s = pop /\ co_tr s = tr /\ best_eq xb fxb x f (co_xb s) (co_fxb s).
Proof. intros. unfold s, best_eq. destruct (fltb f fxb); auto. Qed.
Lemma w_ind_evaluate_tr : forall E x (Q : ind -> elog -> Prop) l, (forall y f l', repaired E x y -> evaluated y f l l' -> Q (y, f) l') -> wp (K_tr E) (ind_evaluate x) Q l.
Proof. intros E x Q l H. unfold ind_evaluate. apply wp_bind. apply w_repair_tr. intros y Hy. apply wp_bind. apply w_eval_tr. intros f l' Hf. apply w_done. auto. Qed.
Lemma w_candidate_tr : forall E F x xn k (Q : ind -> elog -> Prop) l, (forall y f l', candidate_eq E F x xn k y f l l' -> Q (y, f) l') -> wp (K_tr E) (abc_candidate F x xn k) Q l.
Proof.
  intros E F x xn k Q l H. unfold abc_candidate. apply wp_bind. apply w_nthP_tr. intros a Ea. apply wp_bind. apply w_nthP_tr. intros b Eb. apply wp_bind. apply w_uniform. intros u Hu.
  apply wp_bind. apply w_setP_tr. intros Ht. apply w_ind_evaluate_tr. intros y f l' Hy Hf. apply H. exists a, b, u. eexists. repeat (split; [eassumption|]). exact Hf.
Qed.
Lemma w_select_tr : forall E p s i k y f (Q : colony -> elog -> Prop) l, cfg_ok (e_cfg E) -> (forall s' l', select_eq E p s i k y f s' l l' -> Q s' l') ->
  wp (K_tr E) (abc_select (e_cfg E) p s i k (y, f)) Q l.
Proof.
  intros E p s i k y f Q l HC H. unfold abc_select. apply wp_bind. apply w_nthP_tr. intros o Eo. cbn [fst snd]. destruct (fltb f (snd o)) eqn:Q1.
  - apply wp_bind. apply w_setP_tr. intros R1. apply wp_bind. apply w_setP_tr. intros R2. apply w_done. apply H. exists o. split; auto. left. split; auto. split; auto.
    destruct (best_eq_if (upd (co_pop s) i (y, f)) (upd (co_tr s) i 0%Z) (co_xb s) (co_fxb s) y f) as (B1 & B2 & B3). rewrite B1, B2. auto.
  - apply wp_bind. apply w_nthP_tr. intros t Et. apply wp_bind. apply w_setP_tr. intros R1. apply wp_bind. apply w_nthP_tr. intros tk Ek. cbv zeta.
    destruct (ab_limit p <=? tk)%Z eqn:Q2; [apply Z.leb_le in Q2|apply Z.leb_gt in Q2].
    + unfold abc_scout. cbn [co_pop co_tr co_xb co_fxb]. unfold rand_ind, new_ind. apply wp_bind.
      apply wp_conseq0 with (Q := fun a l' => exists z, inside (e_cfg E) z /\ repaired E z (fst a) /\ evaluated (fst a) (snd a) l l').
      { apply wp_bind. apply w_uniform_pt; auto. intros z Hz. apply w_ind_evaluate_tr. intros y1 f1 l1 A1 A2. exists z. auto. }
      intros [y1 f1] l1 (z & Hz & A1 & A2). cbn [fst snd] in *. apply wp_bind. apply w_setP_tr. intros R2. apply wp_bind. apply w_setP_tr. intros R3. apply w_done. apply H.
      exists o. split; auto. right. split; auto. exists t, (upd (co_tr s) i (t + 1)%Z), tk. repeat (split; [assumption|]). right. split; auto. exists z, y1, f1. repeat (split; [assumption|]).
      destruct (best_eq_if (upd (co_pop s) k (y1, f1)) (upd (upd (co_tr s) i (t + 1)%Z) k 0%Z) (co_xb s) (co_fxb s) y1 f1) as (B1 & B2 & B3). rewrite B1, B2. auto.
    + apply w_done. apply H. exists o. split; auto. right. split; auto. exists t, (upd (co_tr s) i (t + 1)%Z), tk. repeat (split; [assumption|]). left. repeat (split; [solve [auto]|]). auto.
Qed.
(** a bee at source i: a component, a neighbour, a candidate and the choice *)
Definition bee_eq (E : env) (F : fops) (p : abc_par) (s : colony) (i sc : nat) (other : nat -> Prop) (s' : colony) (l l' : elog) : Prop := let C := e_cfg E in
  exists o k n nb y f l1, nth_error (co_pop s) i = Some o /\ nth_error (co_pop s) n = Some nb /\ other n /\
    (exists r, in_unit r /\ k = Z.to_nat (fint F (fmul F r (fnat F (c_dim C))))) /\
    (exists r, in_unit r /\ n = Z.to_nat (fint F (fmul F (fnat F (ab_food p)) r))) /\
    candidate_eq E F (fst o) (fst nb) k y f l l1 /\ select_eq E p s i sc y f s' l1 l'.
Lemma w_employed_tr : forall F E p s i (Q : colony -> elog -> Prop) l, cfg_ok (e_cfg E) -> (forall s' l', bee_eq E F p s i i (fun _ => True) s' l l' -> Q s' l') ->
  wp (K_tr E) (abc_employed F (e_cfg E) p s i) Q l.
Proof.
  intros F E p s i Q l HC H. unfold abc_employed.
  apply wp_bind. apply w_nthP_tr. intros o Eo. apply wp_bind. unfold rand_index. apply wp_bind. apply w_random_u. intros r Ur. apply w_done.
  apply wp_bind. unfold food_index. apply wp_bind. apply w_random_u. intros r' Ur'. apply w_done. apply wp_bind. apply w_nthP_tr. intros nb En.
  apply wp_bind. apply w_candidate_tr. intros y f l1 Hc. apply w_select_tr; auto. intros s1 l' Hs. apply H. exists o. eexists. eexists. exists nb, y, f, l1.
  split; [exact Eo|]. split; [exact En|]. split; [exact I|]. split; [exists r; split; [auto|reflexivity]|]. split; [exists r'; split; [auto|reflexivity]|]. split; [exact Hc|exact Hs].
Qed.
Lemma w_neighbor_tr : forall E F m i fuel (Q : nat -> elog -> Prop) l,
  (forall n, (exists r, in_unit r /\ n = Z.to_nat (fint F (fmul F (fnat F m) r))) -> n <> i -> Q n l) -> wp (K_tr E) (abc_neighbor F m i fuel) Q l.
Proof.
  intros E F m i. induction fuel as [|fuel IH]; intros Q l H; cbn [abc_neighbor]; [exact I|]. apply wp_bind. unfold food_index. apply wp_bind. apply w_random_u. intros r Ur. apply w_done.
  destruct (Nat.eqb_spec (Z.to_nat (fint F (fmul F (fnat F m) r))) i); [apply IH; auto|]. apply w_done. apply H; eauto.
Qed.
Lemma w_onlooker_tr : forall F E p fuel s i (Q : colony -> elog -> Prop) l, cfg_ok (e_cfg E) -> (forall s' l', bee_eq E F p s i (ab_food p - 1) (fun n => n <> i) s' l l' -> Q s' l') ->
  wp (K_tr E) (abc_onlooker F (e_cfg E) p fuel s i) Q l.
Proof.
  intros F E p fuel s i Q l HC H. unfold abc_onlooker.
  apply wp_bind. apply w_nthP_tr. intros o Eo. apply wp_bind. unfold rand_index. apply wp_bind. apply w_random_u. intros r Ur. apply w_done.
  apply wp_bind. apply w_neighbor_tr. intros n Hn1 Hn2. apply wp_bind. apply w_nthP_tr. intros nb En.
  apply wp_bind. apply w_candidate_tr. intros y f l1 Hc. apply w_select_tr; auto. intros s1 l' Hs. apply H. exists o. eexists. exists n, nb, y, f, l1.
  split; [exact Eo|]. split; [exact En|]. split; [exact Hn2|]. split; [exists r; split; [auto|reflexivity]|]. split; [exact Hn1|]. split; [exact Hc|exact Hs].
Qed.
(** employed bee i (abc.py:173-190): its own counter decides about the scout *)
Theorem C76_employed : forall F E p s i s' wd wd', let C := e_cfg E in cfg_ok C ->
  exec E (abc_employed F C p s i) wd = (Ret s', wd') ->
  bee_eq E F p s i i (fun _ => True) s' (log_of (c_opt C) (w_h wd)) (log_of (c_opt C) (w_h wd')).
Proof.
  intros F E p s i s' wd wd' C HC Ex. set (l := log_of (c_opt C) (w_h wd)). apply (tr_sound _ E _ (fun s' l' => bee_eq E F p s i i (fun _ => True) s' l l') _ _ _) in Ex; [exact Ex|].
  apply w_employed_tr; auto.
Qed.
(** onlooker bee at source i (abc.py:195-214): a different neighbour, and the counter of the last source decides *)
Theorem C76_onlooker : forall F E p fuel s i s' wd wd', let C := e_cfg E in cfg_ok C ->
  exec E (abc_onlooker F C p fuel s i) wd = (Ret s', wd') ->
  bee_eq E F p s i (ab_food p - 1) (fun n => n <> i) s' (log_of (c_opt C) (w_h wd)) (log_of (c_opt C) (w_h wd')).
Proof.
  intros F E p fuel s i s' wd wd' C HC Ex. set (l := log_of (c_opt C) (w_h wd)). apply (tr_sound _ E _ (fun s' l' => bee_eq E F p s i (ab_food p - 1) (fun n => n <> i) s' l l') _ _ _) in Ex; [exact Ex|].
  apply w_onlooker_tr; auto.
Qed.
(** the second half of the population never changes: it is drawn and evaluated at the start and never looked at again *)
Lemma skipn_ext : forall A (xs ys : list A) m, (forall j, m <= j -> nth_error ys j = nth_error xs j) -> skipn m ys = skipn m xs.
Proof.
  intros A xs ys m. revert xs ys. induction m as [|m IH]; intros xs ys H; cbn [skipn].
  - revert ys H. induction xs as [|x xs IH]; intros [|y ys] H; auto.
    + specialize (H 0 ltac:(lia)). discriminate.
    + specialize (H 0 ltac:(lia)). discriminate.
    + assert (H0 := H 0 ltac:(lia)). injection H0 as ->. f_equal. apply IH. intros j Hj. exact (H (S j) ltac:(lia)).
  - destruct xs as [|x xs], ys as [|y ys]; auto.
    + rewrite (IH [] ys); [destruct m; reflexivity|]. intros j Hj. assert (G := H (S j) ltac:(lia)). cbn [nth_error] in G. rewrite G. destruct j; reflexivity.
    + rewrite <- (IH xs []); [destruct m; reflexivity|]. intros j Hj. assert (G := H (S j) ltac:(lia)). cbn [nth_error] in G. rewrite <- G. destruct j; reflexivity.
    + apply IH. intros j Hj. exact (H (S j) ltac:(lia)).
Qed.
Lemma skipn_row_set : forall A (xs ys : list A) i y m, row_set xs ys i y -> i < m -> skipn m ys = skipn m xs.
Proof. intros A xs ys i y m (R1 & R2 & R3) Hi. apply skipn_ext. intros j Hj. apply R3. lia. Qed.
Section Rest.
Variables (F : fops) (E : env) (p : abc_par).
Let C := e_cfg E.
Hypothesis HC : cfg_ok C.
Let keep (s s' : colony) : Prop := skipn (ab_food p) (co_pop s') = skipn (ab_food p) (co_pop s).
Lemma bee_rest : forall s i k P s' l l', i < ab_food p -> k < ab_food p -> bee_eq E F p s i k P s' l l' -> keep s s'.
Proof.
  intros s i k P s' l l' Hi Hk (o & k' & n & nb & y & f & l1 & _ & _ & _ & _ & _ & _ & (o' & _ & [(_ & _ & R & _)|(_ & t & tr & tk & _ & _ & _ & [(_ & _ & R & _)|(_ & z & y1 & f1 & _ & _ & _ & R & _)])])).
  - eapply skipn_row_set; eauto.
  - unfold keep. rewrite R. reflexivity.
  - eapply skipn_row_set; eauto.
Qed.
Lemma w_onlookers_rest : forall nf probs fuel t i s s0 l, (0 < ab_food p -> i < ab_food p) -> keep s0 s ->
  wp (K_tr E) (abc_onlookers F C p nf probs fuel t i s) (fun s' _ => keep s0 s') l.
Proof.
  intros nf probs. induction fuel as [|fuel IH]; intros t i s s0 l Hi Hk; cbn [abc_onlookers]; destruct (ab_food p <=? t) eqn:Q; try (apply w_done; exact Hk); [exact I|].
  apply Nat.leb_gt in Q. specialize (Hi ltac:(lia)). apply wp_bind. apply w_random_u. intros r _. apply wp_bind. apply w_nthP_tr. intros q0 _.
  assert (Hj : 0 < ab_food p -> (if S i =? ab_food p then 0 else S i) < ab_food p) by (intros; destruct (Nat.eqb_spec (S i) (ab_food p)); lia).
  destruct (fltb r q0); [|apply IH; auto]. apply wp_bind. apply w_onlooker_tr; auto. intros s1 l1 Hb. apply IH; auto. apply bee_rest in Hb; [|lia|lia]. unfold keep in *. congruence.
Qed.
Lemma w_abc_rest : forall fuel pop fit xb fxb tr l, wp (K_tr E) (abc_iter F C p fuel pop fit xb fxb tr)
  (fun a _ => let '(pop', fit', _, _, _) := a in skipn (ab_food p) pop' = skipn (ab_food p) pop /\ fit' = map snd pop') l.
Proof.
  intros fuel pop fit xb fxb tr l. unfold abc_iter. apply wp_bind.
  apply wp_conseq0 with (Q := fun s _ => keep (Colony pop tr xb fxb) s).
  { apply wp_for_range with (I := fun _ s _ => keep (Colony pop tr xb fxb) s); [unfold keep; reflexivity|]. intros i s l1 Hi Hk. apply w_employed_tr; auto. intros s' l' Hb.
    apply bee_rest in Hb; [|lia|lia]. unfold keep in *. congruence. }
  intros s l1 Hk. apply wp_bind. eapply wp_conseq0; [apply (w_onlookers_rest fuel _ fuel 0 0 s _ _ ltac:(auto) Hk)|]. intros s' l' Hk'. apply w_done. split; [exact Hk'|reflexivity].
Qed.
End Rest.
Theorem C76_rest : forall F E p fuel pop fit xb fxb tr pop' fit' xb' fxb' tr' wd wd', let C := e_cfg E in cfg_ok C ->
  exec E (abc_iter F C p fuel pop fit xb fxb tr) wd = (Ret (pop', fit', xb', fxb', tr'), wd') -> skipn (ab_n p / 2) pop' = skipn (ab_n p / 2) pop.
Proof.
  intros F E p fuel pop fit xb fxb tr pop' fit' xb' fxb' tr' wd wd' C HC Ex. apply (tr_sound _ E _ _ _ _ _ (w_abc_rest F E p HC fuel pop fit xb fxb tr _)) in Ex. apply Ex.
Qed.
Theorem C76_rest_run : forall F E p fuel, let C := e_cfg E in cfg_ok C ->
  steps_ok (fun s s' => skipn (ab_n p / 2) (fst (fst s')) = skipn (ab_n p / 2) (fst (fst s))) E (abc F C p fuel).
Proof.
  intros F E p fuel C HC.
  apply (run_steps (K_tr E) E (abc F C p fuel) (fun s _ => r_fit s = map snd (r_pop s)) _).
  - exact (tr_env E).
  - unfold init_prog. cbn [a_init abc]. unfold abc_init. apply wp_bind. apply wp_bind.
    apply wp_conseq0 with (Q := fun a _ => snd a = map snd (fst a)).
    + unfold default_individual_init. apply wp_bind. apply wp_conseq0 with (Q := fun _ _ => True); [|intros; apply w_done; reflexivity].
      apply wp_any.
    + intros [pop fit] l Hf. cbn [fst snd] in Hf. apply w_done. apply wp_bind. destruct (get_best _ fit None PInf) as [[xb fxb]|e]; simpl; auto.
  - intros s l Hf. unfold iter_prog. apply wp_bind. cbn [a_iter abc]. eapply wp_conseq0; [apply (w_abc_rest F E p HC fuel)|].
    intros [[[[pop' fit'] xb'] fxb'] tr'] l' [H1 H2]. split; [exact H2|]. unfold snap_of. cbn [fst snd r_fit]. change (ab_n p / 2) with (ab_food p). rewrite H2, Hf, !skipn_map, H1. reflexivity.
Qed.
(** with two or three bees there is one food source, and no iteration ever ends: there is no other source to look at *)
Lemma no_neighbor : forall F E fuel (Q : nat -> elog -> Prop) l, idx_ok F 1 -> wp (K_tr E) (abc_neighbor F 1 0 fuel) Q l.
Proof.
  intros F E fuel Q l Hi. revert l. induction fuel as [|fuel IH]; intros l; cbn [abc_neighbor]; [exact I|]. apply wp_bind. unfold food_index. apply wp_bind. apply w_random_u. intros r Ur. apply w_done.
  destruct (Hi r Ur) as [_ H2]. cbn [Z.of_nat] in *. replace (Z.to_nat (fint F (fmul F (fnat F 1) r))) with 0 by lia. cbn [Nat.eqb]. apply IH.
Qed.
Theorem C76_two : forall F E p fuel, let C := e_cfg E in ab_n p = 2 \/ ab_n p = 3 -> idx_ok F 1 ->
  steps_ok (fun _ _ => False) E (abc F C p fuel) /\
  forall pop fit xb fxb tr r wd wd', exec E (abc_iter F C p fuel pop fit xb fxb tr) wd = (r, wd') -> exists e, r = Raise e.
Proof.
  intros F E p fuel C Hp Hi. assert (Hf : ab_food p = 1) by (unfold ab_food; destruct Hp as [-> | ->]; reflexivity).
  assert (G : forall pop fit xb fxb tr l, wp (K_tr E) (abc_iter F C p fuel pop fit xb fxb tr) (fun _ _ => False) l).
  { intros pop fit xb fxb tr l. unfold abc_iter. apply wp_bind. eapply wp_conseq0 with (Q := fun _ _ => True); [|intros s l1 _].
    - apply wp_for_range with (I := fun _ _ _ => True); [exact I|]. intros i s l1 Hi1 _. unfold abc_employed. apply wp_any.
    - apply wp_bind. set (probs := abc_probs F p (co_pop s)). clearbody probs. 
      assert (G : forall fu s l, wp (K_tr E) (abc_onlookers F C p fuel probs fu 0 0 s) (fun _ _ => False) l).
      { induction fu as [|fu IH]; intros s1 l2; cbn [abc_onlookers]; rewrite Hf; cbn [Nat.leb Nat.eqb]; [exact I|]. apply wp_bind. apply w_random_u. intros r _. apply wp_bind. apply w_nthP_tr. intros q0 _.
        destruct (fltb r q0); [|apply IH]. apply wp_bind. unfold abc_onlooker. apply wp_bind. apply w_nthP_tr. intros o _. apply wp_bind. unfold rand_index. apply wp_bind. apply w_random_u. intros r1 _. apply w_done.
        apply wp_bind. rewrite Hf. apply no_neighbor; auto. }
      eapply wp_conseq0; [apply G|]. intros s' l' []. }
  split.
  - apply (run_steps (K_tr E) E (abc F C p fuel) (fun _ _ => True) _).
    + exact (tr_env E).
    + apply wp_any.
    + intros s l _. unfold iter_prog. apply wp_bind. cbn [a_iter abc]. eapply wp_conseq0; [apply G|]. intros a l' [].
  - intros pop fit xb fxb tr r wd wd' Ex. destruct r as [a|e]; [|eauto]. exfalso. exact (tr_sound _ E _ _ _ _ _ (G pop fit xb fxb tr _) Ex).
Qed.

(** ** C77: MonarchButterflyOptimization *)
Definition mbo_exn (e : exn) : Prop := e = EValue \/ e = EIndex.
Lemma C77_all : forall F E pi p (X : exn -> Prop), let C := e_cfg E in
  cfg_ok C -> no_nan (e_prob E) -> repair_ok E -> 0 < mb_n p -> mb_np1 F p <= mb_n p ->
  (mb_np1 F p <> 1 /\ 2 <= mb_np2 F p /\ 2 <= c_dim C) \/ (X EValue /\ X EIndex) ->
  sound_run_x X E (mbo F C pi p) /\ sizes_ok (fun n => n = mb_n p) E (mbo F C pi p) /\ steps_ok leads E (mbo F C pi p).
Proof.
  intros F E pi p X C HC Hn Hr Hp Hnp HX.
  assert (G1 := mbo_init_c F C p X HC Hp Hnp HX (mbo_iter F C pi p)).
  assert (G3 : iter_r (KBX C X) (mbo F C pi p) (MboInv C p) leads).
  { intros pop fit xb fxb u l H. eapply wp_conseq0; [apply (mbo_iter_c F C pi p X HC Hp Hnp HX pop fit xb fxb u l H)|].
    intros [[[[pop' fit'] xb'] fxb'] u'] l' (H1 & H2 & H3). split; auto. split; auto. }
  split; [|split].
  - eapply (sound_run_c (inside C) X E (mbo F C pi p)); [auto|auto|auto|exact G1|apply (iter_r_c _ _ _ _ G3)|].
    intros pop fit xb fxb u l [H _]. split; apply H.
  - eapply (sizes_c (inside C) X _ E (mbo F C pi p)); [auto|auto|exact G1|apply (iter_r_c _ _ _ _ G3)|]. intros pop fit xb fxb u l [H _]. apply H.
  - exact (steps_c (inside C) X leads E (mbo F C pi p) _ Hn Hr G1 G3).
Qed.
Theorem C77_mbo : forall F E pi p, let C := e_cfg E in
  cfg_ok C -> no_nan (e_prob E) -> repair_ok E -> 0 < mb_n p -> mb_np1 F p <= mb_n p ->
  sound_run_x mbo_exn E (mbo F C pi p) /\ sizes_ok (fun n => n = mb_n p) E (mbo F C pi p) /\ steps_ok leads E (mbo F C pi p).
Proof. intros. apply C77_all; auto. right. unfold mbo_exn. auto. Qed.
(** neither part has exactly one butterfly, the second is not empty, and there are two components: no exception of its own *)
Theorem C77_clean : forall F E pi p, let C := e_cfg E in
  cfg_ok C -> no_nan (e_prob E) -> repair_ok E -> 0 < mb_n p -> mb_np1 F p <= mb_n p -> mb_np1 F p <> 1 -> 2 <= mb_np2 F p -> 2 <= c_dim C ->
  sound_run E (mbo F C pi p).
Proof. intros. apply C77_all; auto. Qed.
Theorem C77_full : forall F E pi p g, let C := e_cfg E in
  cfg_ok C -> no_nan (e_prob E) -> repair_ok E -> 0 < mb_n p -> mb_np1 F p <= mb_n p -> mb_keep p < mb_n p ->
  deterministic g E -> lim_reached 0 (c_max_iters C) = false ->
  full_run_x mbo_exn E (mbo F C pi p) /\
  (mb_np1 F p <> 1 -> 2 <= mb_np2 F p -> 2 <= c_dim C -> full_run_x (fun _ => False) E (mbo F C pi p)).
Proof.
  intros F E pi p g C HC Hn Hr Hp Hnp Hk Hg Hm.
  assert (G : forall X : exn -> Prop, (mb_np1 F p <> 1 /\ 2 <= mb_np2 F p /\ 2 <= c_dim C) \/ (X EValue /\ X EIndex) -> full_run_x X E (mbo F C pi p)).
  { intros X HX.
    eapply (full_run_intro (fun _ _ => True) (fun x v => v = sgn (c_opt C) (g x)) (inside C) X E (mbo F C pi p)); auto.
    - intros h x v Hv. rewrite (Hg _ _ _ Hv). reflexivity.
    - apply algo_ok_c; [apply (mbo_init_d F C p X HC Hp Hnp HX (fun x => sgn (c_opt C) (g x)))|apply (mbo_iter_d F C pi p X HC Hp Hnp HX (fun x => sgn (c_opt C) (g x)) Hk)].
    - intros s l [[H _] HG]. split; auto. apply H. }
  split; [apply G; right; unfold mbo_exn; auto|]. intros. apply G. auto.
Qed.
(** filling rows cell by cell *)
Lemma nth_upd_eq : forall A (xs : list A) i a d, i < length xs -> nth i (upd xs i a) d = a.
Proof. intros A xs i a d H. apply nth_error_nth. apply nth_upd_same. auto. Qed.
Lemma nth_upd_neq : forall A (xs : list A) i j a d, i <> j -> nth j (upd xs i a) d = nth j xs d.
Proof. intros A xs i j a d H. rewrite <- !(nth_default_eq). unfold nth_default. rewrite nth_upd_other by auto. reflexivity. Qed.
Lemma upd_upd : forall A (xs : list A) i a b, upd (upd xs i a) i b = upd xs i b.
Proof. induction xs as [|x xs IH]; intros [|i] a b; simpl; auto. f_equal. auto. Qed.
Lemma upd_id : forall A (xs : list A) i a, nth_error xs i = Some a -> upd xs i a = xs.
Proof. induction xs as [|x xs IH]; intros [|i] a H; simpl in *; try discriminate; [injection H as ->; auto|f_equal; auto]. Qed.
Lemma w_fill_row : forall K d k (f : list vec -> nat -> prog (list vec)) (P : nat -> num -> Prop) b row l,
  nth_error b k = Some row -> length row = d ->
  (forall b' row' i l', i < d -> nth_error b' k = Some row' -> wp K (f b' i) (fun b2 l2 => l2 = l' /\ exists c, P i c /\ b2 = upd b' k (upd row' i c)) l') ->
  wp K (for_range d f b) (fun b' l' => l' = l /\ exists row', comps d row' P /\ b' = upd b k row') l.
Proof.
  intros K d k f P b row l Hb Lr Hf. assert (Hk : k < length b) by (apply nth_error_Some; congruence).
  apply wp_conseq0 with (Q := fun b' l' => l' = l /\ exists row', length row' = d /\ b' = upd b k row' /\ forall j, j < d -> P j (nth j row' NaN)).
  - apply wp_for_range with (I := fun i b' l' => l' = l /\ exists row', length row' = d /\ b' = upd b k row' /\ forall j, j < i -> P j (nth j row' NaN)).
    + split; auto. exists row. split; auto. split; [symmetry; apply upd_id; auto|]. intros j Hj. lia.
    + intros i b' l' Hi [-> (row' & L' & -> & H')]. eapply wp_conseq0; [apply (Hf _ row' i l Hi); apply nth_upd_same; auto|].
      intros b2 l2 [-> (c & Hc & ->)]. split; auto. exists (upd row' i c). split; [rewrite upd_length; auto|]. split; [apply upd_upd|].
      intros j Hj. destruct (Nat.eq_dec j i) as [->|Hne]; [rewrite nth_upd_eq by lia; auto|]. rewrite nth_upd_neq by auto. apply H'. lia.
  - intros b' l' [-> (row' & L' & -> & H')]. split; auto. exists row'. split; [split; auto|reflexivity].
Qed.
Lemma w_fill_rows : forall K o m (f : list vec -> nat -> prog (list vec)) (R : vec -> Prop) b d l,
  o + m <= length b -> dims d b ->
  (forall b' row k l', k < m -> nth_error b' (o + k) = Some row -> length row = d ->
    wp K (f b' k) (fun b2 l2 => l2 = l' /\ exists row', length row' = d /\ R row' /\ b2 = upd b' (o + k) row') l') ->
  wp K (for_range m f b) (fun b' l' => l' = l /\ length b' = length b /\ dims d b' /\
    (forall k, k < o \/ o + m <= k -> nth_error b' k = nth_error b k) /\ (forall k, o <= k < o + m -> exists row, nth_error b' k = Some row /\ R row)) l.
Proof.
  intros K o m f R b d l Hm Hd Hf.
  eapply wp_conseq0 with (Q := fun b' l' => l' = l /\ length b' = length b /\ dims d b' /\
    (forall k, k < o \/ o + m <= k -> nth_error b' k = nth_error b k) /\ (forall k, o <= k < o + m -> exists row, nth_error b' k = Some row /\ R row)); [|auto].
  apply wp_for_range with (I := fun i b' l' => l' = l /\ length b' = length b /\ dims d b' /\
    (forall k, k < o \/ o + i <= k -> nth_error b' k = nth_error b k) /\ (forall k, o <= k < o + i -> exists row, nth_error b' k = Some row /\ R row)).
  - repeat (split; [solve [auto]|]). intros k Hk. lia.
  - intros i b' l' Hi (-> & L1 & D1 & A1 & B1). assert (Hk : o + i < length b') by lia.
    destruct (nth_error b' (o + i)) as [row|] eqn:Er; [|apply nth_error_None in Er; lia].
    eapply wp_conseq0; [apply (Hf b' row i l Hi Er (dims_nth _ _ _ _ D1 Er))|]. intros b2 l2 [-> (row' & L' & HR & ->)].
    split; auto. split; [rewrite upd_length; auto|]. split; [apply dims_upd; auto|]. split.
    + intros k Hk2. rewrite nth_upd_other by lia. apply A1. lia.
    + intros k Hk2. destruct (Nat.eq_dec k (o + i)) as [->|Hne]; [exists row'; split; auto; apply nth_upd_same; auto|]. rewrite nth_upd_other by lia. apply B1. lia.
Qed.
(** components of the first part come from the same column of a random butterfly of either part; the last butterfly of each part is
    never chosen (mbo.py:150-156) *)
Definition migrate_eq (F : fops) (p : mbo_par) (pop : list vec) (i : nat) (c : num) : Prop :=
  exists r, in_unit r /\
    if fleb (fmul F r (mb_period p)) (mb_partition p)
    then exists j z, j < mb_np1 F p - 1 /\ nth_error pop j = Some z /\ nth_error z i = Some c
    else exists j z, j < mb_np2 F p - 1 /\ nth_error pop (mb_np1 F p + j) = Some z /\ nth_error z i = Some c.
Lemma w_integers_tr : forall E n (Q : nat -> elog -> Prop) l, (forall j, j < n -> Q j l) -> wp (K_tr E) (integers n) Q l.
Proof. intros E [|n] Q l H; [exact I|]. apply w_integers; [lia|]. auto. Qed.
Lemma w_nth2_tr : forall E (q : list vec) j i (Q : num -> elog -> Prop) l, (forall z c, nth_error q j = Some z -> nth_error z i = Some c -> Q c l) -> wp (K_tr E) (nth2 q j i) Q l.
Proof. intros E q j i Q l H. unfold nth2. apply wp_bind. apply w_nthP_tr. intros z Ez. apply w_nthP_tr. intros c Ec. eauto. Qed.
Lemma w_set2_tr : forall E (b : list vec) k i c row (Q : list vec -> elog -> Prop) l, nth_error b k = Some row -> Q (upd b k (upd row i c)) l -> wp (K_tr E) (set2 b k i c) Q l.
Proof. intros E b k i c row Q l Hb H. unfold set2. apply wp_bind. apply w_nthP_tr. intros z Ez. rewrite Hb in Ez. injection Ez as <-. apply wp_bind. apply w_setP_tr. intros _. apply w_setP_tr. auto. Qed.
Lemma nth_error_skipn_add : forall A m (xs : list A) j, nth_error (skipn m xs) j = nth_error xs (m + j).
Proof. induction m; intros [|x xs] j; simpl; auto. destruct j; auto. Qed.
Lemma nth_error_firstn_lt : forall A m (xs : list A) j a, nth_error (firstn m xs) j = Some a -> nth_error xs j = Some a.
Proof. induction m; intros [|x xs] [|j] a H; simpl in *; try discriminate; auto. Qed.
Lemma w_migrate_tr : forall F E p pop l, let C := e_cfg E in mb_np1 F p <= length pop -> dims (c_dim C) pop ->
  wp (K_tr E) (mbo_migrate F C p pop) (fun b l' => l' = l /\ length b = length pop /\ dims (c_dim C) b /\
    (forall k, k < 0 \/ mb_np1 F p <= k -> nth_error b k = nth_error pop k) /\
    (forall k, 0 <= k < mb_np1 F p -> exists row, nth_error b k = Some row /\ comps (c_dim C) row (migrate_eq F p pop))) l.
Proof.
  intros F E p pop l C Hm Hd. unfold mbo_migrate. cbv zeta.
  apply (w_fill_rows (K_tr E) 0 (mb_np1 F p) _ (fun row => comps (c_dim C) row (migrate_eq F p pop)) pop (c_dim C) l Hm Hd).
  intros b' row k l' Hk Er Lr. eapply wp_conseq0.
  + apply (w_fill_row (K_tr E) (c_dim C) k _ (migrate_eq F p pop) b' row l' Er Lr).
    intros b2 row' i l2 Hi Er'. unfold mbo_migrate1. apply wp_bind. apply w_random_u. intros r Ur. apply wp_bind.
    destruct (fleb (fmul F r (mb_period p)) (mb_partition p)) eqn:Q.
    * apply wp_bind. apply w_integers_tr. intros j Hj. apply w_nth2_tr. intros z c Ez Ec. eapply w_set2_tr; [exact Er'|]. split; auto. exists c. split; auto.
      exists r. split; auto. rewrite Q. exists j, z. split; auto. split; auto. eapply nth_error_firstn_lt; eauto.
    * apply wp_bind. apply w_integers_tr. intros j Hj. apply w_nth2_tr. intros z c Ez Ec. eapply w_set2_tr; [exact Er'|]. split; auto. exists c. split; auto.
      exists r. split; auto. rewrite Q. exists j, z. split; auto. split; auto. rewrite <- nth_error_skipn_add. auto.
  + intros b2 l2 [-> (row' & Hc & ->)]. split; auto. exists row'. split; [apply Hc|auto].
Qed.
Theorem C77_migrate : forall F E p pop b wd wd', let C := e_cfg E in
  mb_np1 F p <= length pop -> Forall (fun x => length x = c_dim C) pop ->
  exec E (mbo_migrate F C p pop) wd = (Ret b, wd') ->
  log_of (c_opt C) (w_h wd') = log_of (c_opt C) (w_h wd) /\ length b = length pop /\
  (forall k, mb_np1 F p <= k -> nth_error b k = nth_error pop k) /\
  (forall k, k < mb_np1 F p -> exists row, nth_error b k = Some row /\ comps (c_dim C) row (migrate_eq F p pop)).
Proof.
  intros F E p pop b wd wd' C Hm Hd Ex. apply (tr_sound _ E _ _ _ _ _ (w_migrate_tr F E p pop _ Hm Hd)) in Ex.
  destruct Ex as (E1 & E2 & _ & E3 & E4). split; auto. split; auto. split; [intros k Hk; apply E3; auto|]. intros k Hk. apply E4. lia.
Qed.
(** the second part: a component of the best, or component 1 (whatever the column) of a random butterfly of the second part, maybe
    with a step added (mbo.py:181-187) *)
Definition unif01 (F : fops) (u : num) : Prop :=
  fleb (flit F 0 1) (flit F 1 1) = true -> fleb (flit F 0 1) u = true /\ fleb u (flit F 1 1) = true.
Definition adjust_eq (F : fops) (p : mbo_par) (scale : num) (best delta : vec) (pop : list vec) (i : nat) (c : num) : Prop :=
  exists u, unif01 F u /\
    if fleb (mb_partition p) u then nth_error best i = Some c
    else exists j z a u' e, j < mb_np2 F p - 1 /\ nth_error pop (mb_np1 F p + j) = Some z /\ nth_error z 1 = Some a /\ unif01 F u' /\ nth_error delta i = Some e /\
      c = if fltb (mb_bar p) u' then fadd F a (fmul F scale (fsub F e (flit F 1 2))) else a.
Definition levy_eq (F : fops) (pi : num) (e : num) : Prop :=
  exists us, length us = 10 /\ Forall (unif01 F) us /\ e = vsum F (map (fun a => ftan F (fmul F pi a)) us).
Lemma w_unif01s : forall K F n (Q : vec -> elog -> Prop) l, (forall us, length us = n -> Forall (unif01 F) us -> Q us l) ->
  wp K (mapM (fun _ => uniform (flit F 0 1) (flit F 1 1)) (seq 0 n)) Q l.
Proof.
  intros K F n Q l H. eapply wp_conseq0; [apply (wp_mapM_acc _ _ _ _ (fun us l' => l' = l /\ Forall (unif01 F) us)); auto|].
  - intros pre a post v l' _ _ [-> Hv']. apply w_uniform. intros r Hr. split; auto. apply Forall_app. split; auto.
  - intros us l' [[-> H1] H2]. apply H; auto. rewrite H2, seq_length. auto.
Qed.
Lemma w_adjust_tr : forall F E pi p t best pop l, let C := e_cfg E in
  let scale := fdiv F (flit F 1 1) (fz F (Z.of_nat (S t) * Z.of_nat (S t))) in
  length pop = mb_n p -> mb_np1 F p <= mb_n p -> dims (c_dim C) pop ->
  wp (K_tr E) (mbo_adjust F C pi p t best pop) (fun b l' => l' = l /\ length b = length pop /\ dims (c_dim C) b /\
    (forall k, k < mb_np1 F p \/ mb_np1 F p + mb_np2 F p <= k -> nth_error b k = nth_error pop k) /\
    (forall k, mb_np1 F p <= k < mb_np1 F p + mb_np2 F p -> exists row, nth_error b k = Some row /\
       exists delta, length delta = c_dim C /\ Forall (levy_eq F pi) delta /\ comps (c_dim C) row (adjust_eq F p scale best delta pop))) l.
Proof.
  intros F E pi p t best pop l C scale Hn Hm Hd. unfold mbo_adjust. fold scale. cbv zeta.
  set (R := fun row => exists delta, length delta = c_dim C /\ Forall (levy_eq F pi) delta /\ comps (c_dim C) row (adjust_eq F p scale best delta pop)).
  assert (Hs : mb_np1 F p + mb_np2 F p = length pop) by (unfold mb_np2; lia).
  apply (w_fill_rows (K_tr E) (mb_np1 F p) (mb_np2 F p) _ R pop (c_dim C) l ltac:(lia) Hd).
  intros b' row k l' Hk Er Lr. apply wp_bind. unfold rnd_f. intros st. apply w_done. apply wp_bind.
  apply wp_conseq0 with (Q := fun delta l2 => l2 = l' /\ length delta = c_dim C /\ Forall (levy_eq F pi) delta).
  { unfold mbo_levy. eapply wp_conseq0; [apply (wp_mapM_acc _ _ _ _ (fun v l2 => l2 = l' /\ Forall (levy_eq F pi) v)); auto|].
    - intros pre a post v l2 _ _ [-> Hv]. apply wp_bind. apply w_unif01s. intros us Lu Hu. apply w_done. split; auto. apply Forall_app. split; auto. constructor; auto. exists us. auto.
    - intros v l2 [[-> H1] H2]. rewrite seq_length in H2. auto. }
  intros delta l2 (-> & Ld & Hdl). eapply wp_conseq0.
  + apply (w_fill_row (K_tr E) (c_dim C) (mb_np1 F p + k) _ (adjust_eq F p scale best delta pop) b' row l' Er Lr).
    intros b2 row' i l2 Hi Er'. unfold mbo_adjust1. apply wp_bind. apply w_uniform. intros u Hu. destruct (fleb (mb_partition p) u) eqn:Q.
    * apply wp_bind. apply w_nthP_tr. intros c Ec. eapply w_set2_tr; [exact Er'|]. split; auto. exists c. split; auto. exists u. split; auto. rewrite Q. auto.
    * apply wp_bind. apply w_integers_tr. intros j Hj. apply wp_bind. apply w_nth2_tr. intros z c Ez Ec. apply wp_bind. apply w_uniform. intros u' Hu'. apply wp_bind. apply w_nthP_tr. intros e Ee.
      eapply w_set2_tr; [exact Er'|]. split; auto. eexists. split; [|reflexivity]. exists u. split; auto. rewrite Q. exists j, z, c, u', e. rewrite nth_error_skipn_add in Ez. repeat (split; [assumption|]). reflexivity.
  + intros b2 l2 [-> (row' & Hc & ->)]. split; auto. exists row'. split; [apply Hc|]. split; auto. exists delta. auto.
Qed.
Theorem C77_adjust : forall F E pi p t best pop b wd wd', let C := e_cfg E in
  let scale := fdiv F (flit F 1 1) (fz F (Z.of_nat (S t) * Z.of_nat (S t))) in
  length pop = mb_n p -> mb_np1 F p <= mb_n p -> Forall (fun x => length x = c_dim C) pop ->
  exec E (mbo_adjust F C pi p t best pop) wd = (Ret b, wd') ->
  log_of (c_opt C) (w_h wd') = log_of (c_opt C) (w_h wd) /\ length b = length pop /\
  (forall k, k < mb_np1 F p -> nth_error b k = nth_error pop k) /\
  (forall k, mb_np1 F p <= k < mb_n p -> exists row delta, nth_error b k = Some row /\ length delta = c_dim C /\ Forall (levy_eq F pi) delta /\
     comps (c_dim C) row (adjust_eq F p scale best delta pop)).
Proof.
  intros F E pi p t best pop b wd wd' C scale Hn Hm Hd Ex. apply (tr_sound _ E _ _ _ _ _ (w_adjust_tr F E pi p t best pop _ Hn Hm Hd)) in Ex.
  destruct Ex as (E1 & E2 & _ & E3 & E4). split; auto. split; auto. split; [intros k Hk; apply E3; left; lia|]. intros k Hk.
  destruct (E4 k) as (row & F1 & delta & F2 & F3 & F4); [unfold mb_np2; lia|]. exists row, delta. auto.
Qed.
(** an iteration keeps the first [keep] butterflies: the new population, sorted, consists of them and of new ones *)
Lemma combine_fst : forall A B (xs : list A) (ys : list B), length ys = length xs -> map fst (combine xs ys) = xs.
Proof. induction xs; intros [|y ys] H; simpl in *; try discriminate; auto. f_equal. auto. Qed.
Lemma w_mbo_evaluate_tr : forall E pop (Q : list vec * list num -> elog -> Prop) l,
  (forall xs fs l', length xs = length pop -> length fs = length pop -> Permutation xs pop -> StronglySorted (fun a b => key_le a b = true) fs -> Q (xs, fs) l') ->
  wp (K_tr E) (mbo_evaluate pop) Q l.
Proof.
  intros E pop Q l H. unfold mbo_evaluate. apply wp_bind. apply w_eval_all_tr. intros fs l' He. assert (Lf : length fs = length pop) by (symmetry; clear - He; induction He; simpl; auto). cbv zeta. apply w_done.
  assert (Lc : length (sort_by (combine pop fs)) = length pop) by (rewrite sort_by_len, combine_length; lia).
  apply H; rewrite ?map_length; auto.
  - transitivity (map fst (combine pop fs)); [apply Permutation_map; apply Permutation_sym; apply sort_by_perm|]. rewrite (combine_fst _ _ pop fs) by auto. reflexivity.
  - assert (S := sort_by_sorted (combine pop fs)). clear - S. induction S; simpl; constructor; auto. apply Forall_map. exact H.
Qed.
Theorem C77_elite : forall F E pi p pop fit xb fxb cb pop' fit' xb' fxb' cb' wd wd', let C := e_cfg E in
  mb_keep p <= length pop -> mb_np1 F p <= mb_n p -> length pop = mb_n p -> Forall (fun x => length x = c_dim C) pop ->
  (forall q0 x, length x = c_dim C -> length (e_rep E q0 x) = c_dim C) ->
  exec E (mbo_iter F C pi p pop fit xb fxb cb) wd = (Ret (pop', fit', xb', fxb', cb'), wd') ->
  length pop' = mb_n p /\ length fit' = mb_n p /\ StronglySorted (fun a b => key_le a b = true) fit' /\
  exists new, length new = mb_n p - mb_keep p /\ Permutation pop' (new ++ firstn (mb_keep p) pop) /\ cb' = hd_error (new ++ firstn (mb_keep p) pop).
Proof.
  intros F E pi p pop fit xb fxb cb pop' fit' xb' fxb' cb' wd wd' C Hk Hm Hn Hd Hrl Ex. set (l := log_of (c_opt C) (w_h wd)).
  pose (S0 := fun (a : list vec * list num * vec * num * option vec) (l' : elog) => let '(pop', fit', _, _, cb') := a in
    length pop' = mb_n p /\ length fit' = mb_n p /\ StronglySorted (fun a b => key_le a b = true) fit' /\
    exists new, length new = mb_n p - mb_keep p /\ Permutation pop' (new ++ firstn (mb_keep p) pop) /\ cb' = hd_error (new ++ firstn (mb_keep p) pop)).
  apply (tr_sound _ E _ S0 _ _ _) in Ex; [exact Ex|]. fold C l. clear Ex. unfold mbo_iter. cbv zeta.
  assert (Rl : forall xs ys, dims (c_dim C) xs -> Forall2 (repaired E) xs ys -> dims (c_dim C) ys /\ length ys = length xs).
  { clear - Hrl. intros xs ys Hd H. induction H; [split; auto|]. inversion Hd; subst. destruct IHForall2; auto. split; [constructor; auto|simpl; auto]. destruct H as (q0 & ->). auto. }
  apply wp_bind. intros v. apply wp_bind. eapply wp_conseq0; [apply (w_migrate_tr F E p pop l ltac:(lia) Hd)|]. intros m l1 (-> & Lm & Dm & _).
  apply wp_bind. apply w_repair_all_tr. intros pop1 R1. destruct (Rl _ _ Dm R1) as [D1 L1].
  apply wp_bind. eapply wp_conseq0 with (Q := fun _ _ => True); [apply wp_any|]. intros best l2 _.
  apply wp_bind. eapply wp_conseq0; [apply (w_adjust_tr F E pi p (v_iters v) best pop1 l2 ltac:(lia) Hm D1)|]. intros a l3 (-> & La & Da & _).
  apply wp_bind. apply w_repair_all_tr. intros pop2 R2. destruct (Rl _ _ Da R2) as [D2 L2].
  apply wp_bind. apply w_mbo_evaluate_tr. intros pop3 fit3 l4 L3 _ _ _.
  apply wp_bind. apply w_nthP_tr. intros cb1 Ec. apply wp_bind. apply w_mbo_evaluate_tr. intros pop5 fit5 l5 L5 Lf5 P5 S5.
  apply wp_bind. apply w_lift_tr. intros [x f] _. apply w_done. unfold S0.
  assert (L4 : length (firstn (length pop3 - mb_keep p) pop3 ++ firstn (mb_keep p) pop) = mb_n p) by (rewrite app_length, !firstn_length; lia).
  split; [lia|]. split; [lia|]. split; [exact S5|]. exists (firstn (length pop3 - mb_keep p) pop3). split; [rewrite firstn_length; lia|]. split; [exact P5|].
  rewrite <- Ec. destruct (firstn (length pop3 - mb_keep p) pop3 ++ firstn (mb_keep p) pop); reflexivity.
Qed.

(** ** C78: ForestOptimizationAlgorithm *)
Theorem C78_foa : forall F E p, let C := e_cfg E in
  cfg_ok C -> no_nan (e_prob E) -> repair_ok E -> 0 < fo_n p -> 0 < fo_area p -> 0 < fo_life p \/ 0 < fo_lsc p -> fo_lsc p <= c_dim C -> fo_gsc p <= c_dim C ->
  best_run_x (eq EValue) E (foa F C p) /\ sizes_ok (fun n => 0 < n) E (foa F C p) /\
  ((forall m, (fint F (fmul F (fo_rate p) (fnat F m)) <= Z.of_nat m)%Z) -> best_run E (foa F C p)).
Proof.
  intros F E p C HC Hn Hr H1 H2 H3 H4 H5.
  assert (G : forall X : exn -> Prop, (forall m, (fint F (fmul F (fo_rate p) (fnat F m)) <= Z.of_nat m)%Z) \/ X EValue ->
    best_run_p (inside C) X E (foa F C p) /\ sizes_ok (fun n => 0 < n) E (foa F C p)).
  { intros X HX. refine (all2_c (inside C) X (fun n => 0 < n) E (foa F C p) _ HC Hn Hr (foa_init_c C p X HC H1 H2 H3 H4 H5 (foa_iter F C p)) (foa_iter_c F C p X HC H1 H2 H3 H4 H5 HX) _).
    intros pop fit xb fxb ages l [A1 A2 A3 A4 A5 A6 A7]. split; auto. split; auto. destruct ages; [destruct A5|]. simpl in A2. lia. }
  split; [|split].
  - apply (G (eq EValue)). right. reflexivity.
  - apply (G (fun _ => True)). auto.
  - intros Hm. apply (G (fun _ => False)). auto.
Qed.
(** for a share between 0 and 1 binary64 never asks for more candidates than there are *)
Theorem C78_rate_64 : forall r m, (Z.of_nat m <= 2 ^ 53)%Z -> fleb f0 r = true -> fleb r (flit b64ops 1 1) = true ->
  (0 <= fint b64ops (fmul b64ops r (fnat b64ops m)) <= Z.of_nat m)%Z.
Proof. intros r m H1 H2 H3. apply share_ok_64; auto. Qed.
(** a member of every population has age 0, and there is one age for each tree *)
Theorem C78_ages : forall F E p s w, let C := e_cfg E in
  cfg_ok C -> no_nan (e_prob E) -> repair_ok E -> 0 < fo_n p -> 0 < fo_area p -> 0 < fo_life p \/ 0 < fo_lsc p -> fo_lsc p <= c_dim C -> fo_gsc p <= c_dim C ->
  reached E (foa F C p) s w -> length (r_par s) = length (r_pop s) /\ length (r_fit s) = length (r_pop s) /\ In 0 (r_par s).
Proof.
  intros F E p s w C HC Hn Hr H1 H2 H3 H4 H5 HR.
  destruct (reach_c (inside C) (fun e => e = EValue) E (foa F C p) _ Hn Hr (foa_init_c C p _ HC H1 H2 H3 H4 H5 (foa_iter F C p)) (foa_iter_c F C p _ HC H1 H2 H3 H4 H5 (or_intror eq_refl)) s w HR) as [A1 A2 A3 A4 A5 A6 A7].
  auto.
Qed.
(** local seeding (foa.py:142-144): local_seeding_changes distinct components move by at most |upper| / 5 *)
Definition lseed_eq (E : env) (F : fops) (p : foa_par) (x y : vec) : Prop := let C := e_cfg E in
  exists idx t, length idx = fo_lsc p /\ NoDup idx /\ length t = length x /\
    (forall j, ~ In j idx -> nth_error t j = nth_error x j) /\
    (forall j, In j idx -> exists hi a u, nth_error (c_upper C) j = Some hi /\ nth_error x j = Some a /\ let d := fdiv F (fabs F hi) (flit F 5 1) in
       (fleb (fneg d) d = true -> fleb (fneg d) u = true /\ fleb u d = true) /\ nth_error t j = Some (fadd F a u)) /\
    repaired E t y.
Lemma w_choice_tr : forall E n k (Q : list nat -> elog -> Prop) l, (forall rs, length rs = k -> NoDup rs -> (forall r, In r rs -> r < n) -> k <= n -> Q rs l) -> wp (K_tr E) (choice n k) Q l.
Proof.
  intros E n k Q l H. destruct (le_lt_dec k n) as [Hk|Hk]; [apply w_choice; auto|]. apply w_choice_from_over; [exact I|rewrite seq_length; auto].
Qed.
(** changing the components in [idx] one by one *)
Lemma w_change_tr : forall K (f : vec -> nat -> prog vec) (P : nat -> num -> num -> Prop) idx x l, NoDup idx ->
  (forall y j a l', In j idx -> (nth_error y j = nth_error x j) -> nth_error x j = Some a -> wp K (f y j) (fun y' l2 => l2 = l' /\ exists c, P j a c /\ y' = upd y j c) l') ->
  (forall y j l', In j idx -> nth_error y j = nth_error x j -> nth_error x j = None -> wp K (f y j) (fun _ _ => False) l') ->
  wp K (foldM f idx x) (fun y l' => l' = l /\ length y = length x /\ (forall j, ~ In j idx -> nth_error y j = nth_error x j) /\
    (forall j, In j idx -> exists a c, nth_error x j = Some a /\ nth_error y j = Some c /\ P j a c)) l.
Proof.
  intros K f P idx x l ND Hf Hn.
  assert (G : forall idx' pre y, pre ++ idx' = idx -> length y = length x -> (forall j, ~ In j pre -> nth_error y j = nth_error x j) ->
    (forall j, In j pre -> exists a c, nth_error x j = Some a /\ nth_error y j = Some c /\ P j a c) ->
    wp K (foldM f idx' y) (fun y l' => l' = l /\ length y = length x /\ (forall j, ~ In j idx -> nth_error y j = nth_error x j) /\
      (forall j, In j idx -> exists a c, nth_error x j = Some a /\ nth_error y j = Some c /\ P j a c)) l).
  { induction idx' as [|j idx' IH]; intros pre y E0 L0 A0 B0; cbn [foldM].
    - apply w_done. rewrite app_nil_r in E0. subst pre. auto.
    - assert (Nj : ~ In j pre). { rewrite <- E0 in ND. apply NoDup_remove_2 in ND. intros Hi. apply ND. apply in_or_app. auto. }
      assert (Ij : In j idx) by (rewrite <- E0; apply in_or_app; right; left; auto).
      apply wp_bind. destruct (nth_error x j) as [a|] eqn:Ex.
      + eapply wp_conseq0; [apply (Hf y j a l Ij (A0 j Nj) Ex)|]. intros y' l2 [-> (c & Hc & ->)].
        assert (Hj : j < length y) by (rewrite L0; apply nth_error_Some; congruence).
        apply (IH (pre ++ [j])); [rewrite <- app_assoc; exact E0|rewrite upd_length; auto| |].
        * intros k Hk. rewrite nth_upd_other; [apply A0|]; intros H; apply Hk; apply in_or_app; [auto|subst; simpl; auto].
        * intros k Hk. apply in_app_or in Hk. destruct Hk as [Hk|[<-|[]]].
          -- destruct (B0 k Hk) as (a' & c' & F1 & F2 & F3). exists a', c'. split; auto. split; auto. rewrite nth_upd_other; auto. intros ->. auto.
          -- exists a, c. split; auto. split; auto. apply nth_upd_same. auto.
      + eapply wp_conseq0; [apply (Hn y j l Ij (A0 j Nj) Ex)|]. intros ? ? []. }
  apply (G idx []); auto. intros j [].
Qed.
Lemma w_lseed_tr : forall F E p x (Q : vec -> elog -> Prop) l, let C := e_cfg E in length x = c_dim C -> (forall y, lseed_eq E F p x y -> Q y l) -> wp (K_tr E) (foa_lseed F C p x) Q l.
Proof.
  intros F E p x Q l C Lx HQ. unfold foa_lseed.
  apply wp_bind. apply w_choice_tr. intros idx Li ND Hi Hk. apply wp_bind. eapply wp_conseq0.
  - apply (w_change_tr (K_tr E) _ (fun j a c => exists hi u, nth_error (c_upper C) j = Some hi /\ let d := fdiv F (fabs F hi) (flit F 5 1) in
      (fleb (fneg d) d = true -> fleb (fneg d) u = true /\ fleb u d = true) /\ c = fadd F a u) idx x l ND).
    + intros t j a l' Hj E1 E2. apply wp_bind. apply w_nthP_tr. intros d Ed. apply wp_bind. apply w_uniform. intros u Hu. apply wp_bind. apply w_nthP_tr. intros a' Ea.
      rewrite E1, E2 in Ea. injection Ea as <-. apply w_setP_tr. intros _. split; auto. eexists. split; [|reflexivity].
      unfold fo_dx in Ed. rewrite nth_error_map in Ed. destruct (nth_error (c_upper C) j) as [hi|] eqn:Eh; [|discriminate]. injection Ed as <-. exists hi, u. auto.
    + intros t j l' Hj E1 E2. apply nth_error_None in E2. specialize (Hi j Hj). lia.
  - intros t l' (-> & Lt & H1 & H2). apply w_repair_tr. intros z Hz. apply HQ. exists idx, t. split; auto. split; auto. split; [lia|]. split; auto. split; auto.
    intros j Hj. destruct (H2 j Hj) as (a & c & F1 & F2 & hi & u & F3 & F4 & ->). exists hi, a, u. auto.
Qed.
Theorem C78_local : forall F E p x y wd wd', let C := e_cfg E in length x = c_dim C ->
  exec E (foa_lseed F C p x) wd = (Ret y, wd') -> lseed_eq E F p x y /\ log_of (c_opt C) (w_h wd') = log_of (c_opt C) (w_h wd).
Proof.
  intros F E p x y wd wd' C Lx Ex. set (l := log_of (c_opt C) (w_h wd)).
  apply (tr_sound _ E _ (fun y l' => lseed_eq E F p x y /\ l' = l) _ _ _) in Ex; [exact Ex|]. apply w_lseed_tr; auto.
Qed.
(** global seeding (foa.py:161-162): global_seeding_changes distinct components are redrawn between the bounds *)
Definition gseed_eq (C : cfg) (p : foa_par) (x y : vec) : Prop :=
  exists idx, length idx = fo_gsc p /\ NoDup idx /\ length y = length x /\
    (forall j, ~ In j idx -> nth_error y j = nth_error x j) /\
    (forall j, In j idx -> exists lo hi u, nth_error (c_lower C) j = Some lo /\ nth_error (c_upper C) j = Some hi /\ nth_error y j = Some u /\
       (fleb lo hi = true -> fleb lo u = true /\ fleb u hi = true)).
Lemma w_gseed_tr : forall E p x (Q : vec -> elog -> Prop) l, let C := e_cfg E in length x = c_dim C -> (forall y, gseed_eq C p x y -> Q y l) -> wp (K_tr E) (foa_gseed C p x) Q l.
Proof.
  intros E p x Q l C Lx HQ. unfold foa_gseed.
  apply wp_bind. apply w_choice_tr. intros idx Li ND Hi Hk. eapply wp_conseq0.
  - apply (w_change_tr (K_tr E) _ (fun j a c => exists lo hi, nth_error (c_lower C) j = Some lo /\ nth_error (c_upper C) j = Some hi /\
      (fleb lo hi = true -> fleb lo c = true /\ fleb c hi = true)) idx x l ND).
    + intros t j a l' Hj E1 E2. apply wp_bind. apply w_nthP_tr. intros lo El. apply wp_bind. apply w_nthP_tr. intros hi Eh. apply wp_bind. apply w_uniform. intros u Hu.
      apply w_setP_tr. intros _. split; auto. eexists. split; [|reflexivity]. exists lo, hi. auto.
    + intros t j l' Hj E1 E2. apply nth_error_None in E2. specialize (Hi j Hj). lia.
  - intros t l' (-> & Lt & H1 & H2). apply HQ. exists idx. repeat (split; [solve [auto]|]).
    intros j Hj. destruct (H2 j Hj) as (a & c & F1 & F2 & lo & hi & F3 & F4 & F5). exists lo, hi, c. auto.
Qed.
Theorem C78_global : forall E p x y wd wd', let C := e_cfg E in length x = c_dim C ->
  exec E (foa_gseed C p x) wd = (Ret y, wd') -> gseed_eq C p x y /\ log_of (c_opt C) (w_h wd') = log_of (c_opt C) (w_h wd).
Proof.
  intros E p x y wd wd' C Lx Ex. set (l := log_of (c_opt C) (w_h wd)).
  apply (tr_sound _ E _ (fun y l' => gseed_eq C p x y /\ l' = l) _ _ _) in Ex; [exact Ex|]. apply w_gseed_tr; auto.
Qed.
(** survival of the fittest (foa.py:185-208): the area_limit best trees stay, the others become candidates *)
Definition survival_eq (p : foa_par) (ts : list tree) (kept : list (tree * num)) (excess : list vec) (l l' : elog) : Prop :=
  exists fs rest, evaluated_all (map tr_x ts) fs l l' /\ Permutation (combine ts fs) (kept ++ rest) /\ excess = map (fun a => tr_x (fst a)) rest /\
    length kept = Nat.min (fo_area p) (length ts) /\ (forall a b, In a kept -> In b rest -> key_le (snd a) (snd b) = true).
Lemma w_survival_tr : forall E p ts (Q : list (tree * num) * list vec -> elog -> Prop) l,
  (forall kept excess l', survival_eq p ts kept excess l l' -> Q (kept, excess) l') -> wp (K_tr E) (foa_survival p ts) Q l.
Proof.
  intros E p ts Q l HQ. unfold foa_survival. apply wp_bind. apply w_eval_all_tr. intros fs l' He. cbv zeta. apply w_done. apply HQ.
  assert (Lf : length fs = length ts) by (rewrite <- (map_length tr_x); symmetry; clear - He; induction He; simpl; auto).
  exists fs, (skipn (fo_area p) (sort_on snd (combine ts fs))). split; auto. split; [rewrite firstn_skipn; apply sort_on_perm|]. split; auto. split.
  - rewrite firstn_length, sort_on_length, combine_length. lia.
  - intros x b Hx Hb. exact (sort_on_split _ _ _ _ _ _ Hx Hb).
Qed.
Theorem C78_survival : forall E p ts kept excess wd wd', let C := e_cfg E in
  exec E (foa_survival p ts) wd = (Ret (kept, excess), wd') ->
  survival_eq p ts kept excess (log_of (c_opt C) (w_h wd)) (log_of (c_opt C) (w_h wd')).
Proof.
  intros E p ts kept excess wd wd' C Ex. set (l := log_of (c_opt C) (w_h wd)).
  apply (tr_sound _ E _ (fun a l' => survival_eq p ts (fst a) (snd a) l l') _ _ _) in Ex; [exact Ex|]. apply w_survival_tr. auto.
Qed.
(** int(transfer_rate * candidates) distinct candidates are seeded globally and evaluated *)
Definition transfer_eq (E : env) (F : fops) (p : foa_par) (cand : list vec) (new : list (tree * num)) (l l' : elog) : Prop :=
  let k := fint F (fmul F (fo_rate p) (fnat F (length cand))) in
  ((k <= 0)%Z /\ new = [] /\ l' = l) \/
  ((0 < k)%Z /\ exists idx gs, length idx = Z.to_nat k /\ NoDup idx /\
     Forall2 (fun i y => exists x, nth_error cand i = Some x /\ gseed_eq (e_cfg E) p x y) idx gs /\
     map fst new = map (fun y => Tree y 0) gs /\ evaluated_all gs (map snd new) l l').
Lemma w_mapM_tr : forall A B K (f : A -> prog B) (R : A -> B -> Prop) xs (Q : list B -> elog -> Prop) l,
  (forall x (Q0 : B -> elog -> Prop) l0, In x xs -> (forall y, R x y -> Q0 y l0) -> wp K (f x) Q0 l0) ->
  (forall ys, Forall2 R xs ys -> Q ys l) -> wp K (mapM f xs) Q l.
Proof.
  intros A B K f R. induction xs as [|x xs IH]; intros Q l Hf HQ; cbn [mapM]; [apply w_done; auto|].
  apply wp_bind. apply Hf; [left; auto|]. intros y Hy. apply wp_bind. apply IH; [intros x0 Q0 l0 H0; apply Hf; right; auto|]. intros ys Hs. apply w_done. apply HQ. constructor; auto.
Qed.
Lemma w_transfer_tr : forall F E p cand (Q : list (tree * num) -> elog -> Prop) l, dims (c_dim (e_cfg E)) cand ->
  (forall new l', transfer_eq E F p cand new l l' -> Q new l') -> wp (K_tr E) (foa_transfer F (e_cfg E) p cand) Q l.
Proof.
  intros F E p cand Q l Hd HQ. unfold foa_transfer. cbv zeta. destruct (0 <? _)%Z eqn:Q0; [apply Z.ltb_lt in Q0|apply Z.ltb_ge in Q0].
  - unfold foa_global. apply wp_bind. apply wp_bind. apply w_choice_tr. intros idx Li ND Hi Hk.
    apply (w_mapM_tr _ _ _ _ (fun i y => exists x, nth_error cand i = Some x /\ gseed_eq (e_cfg E) p x y)).
    + intros i Q1 l1 Hin H1. apply wp_bind. apply w_nthP_tr. intros x Ex. apply w_gseed_tr; [exact (dims_nth _ _ _ _ Hd Ex)|]. intros y Hy. apply H1. eauto.
    + intros gs Hgs. apply wp_bind. apply w_eval_all_tr. intros fs l' He. apply w_done. apply HQ. right. split; auto. exists idx, gs. split; auto. split; auto. split; auto.
      assert (Lf : length fs = length gs) by (symmetry; clear - He; induction He; simpl; auto).
      rewrite combine_fst, combine_snd by (rewrite map_length; auto). auto.
  - apply w_done. apply HQ. left. auto.
Qed.
(** one iteration (foa.py:232-271): trees of age 0 are seeded locally (local_seeding_changes copies each), the others and they grow
    older, those past life_time leave, the best stay, the rest may be seeded globally; the best tree gets age 0 *)
Theorem C78_iter : forall F E p pop fit xb fxb ages pop' fit' xb' fxb' ages' wd wd', let C := e_cfg E in
  Forall (fun x => length x = c_dim C) pop -> (forall q0 x, length x = c_dim C -> length (e_rep E q0 x) = c_dim C) ->
  exec E (foa_iter F C p pop fit xb fxb ages) wd = (Ret (pop', fit', xb', fxb', ages'), wd') ->
  let ts := combine pop ages in
  exists seeds kept excess new l1 i x f,
    Forall2 (lseed_eq E F p) (flat_map (fun a => if snd a =? 0 then repeat (fst a) (fo_lsc p) else []) ts) seeds /\
    survival_eq p (map (fun a => Tree (fst a) (snd a + 1)) (filter (fun a => snd a + 1 <=? fo_life p) ts) ++ map (fun x => Tree x 0) seeds)
      kept excess (log_of (c_opt C) (w_h wd)) l1 /\
    transfer_eq E F p (map fst (filter (fun a => fo_life p <? snd a + 1) ts) ++ excess) new l1 (log_of (c_opt C) (w_h wd')) /\
    pop' = map (fun a => tr_x (fst a)) (kept ++ new) /\ fit' = map snd (kept ++ new) /\
    argmin fit' = Some i /\ nth_error pop' i = Some x /\ nth_error fit' i = Some f /\
    ages' = upd (map (fun a => tr_age (fst a)) (kept ++ new)) i 0 /\ best_eq xb fxb x f xb' fxb'.
Proof.
  intros F E p pop fit xb fxb ages pop' fit' xb' fxb' ages' wd wd' C Hd Hrl Ex. set (l := log_of (c_opt C) (w_h wd)). cbv zeta.
  pose (S0 := fun (a : list vec * list num * vec * num * list nat) (l' : elog) => let '(pop', fit', xb', fxb', ages') := a in
    exists seeds kept excess new l1 i x f,
    Forall2 (lseed_eq E F p) (flat_map (fun a => if snd a =? 0 then repeat (fst a) (fo_lsc p) else []) (combine pop ages)) seeds /\
    survival_eq p (map (fun a => Tree (fst a) (snd a + 1)) (filter (fun a => snd a + 1 <=? fo_life p) (combine pop ages)) ++ map (fun x => Tree x 0) seeds)
      kept excess l l1 /\
    transfer_eq E F p (map fst (filter (fun a => fo_life p <? snd a + 1) (combine pop ages)) ++ excess) new l1 l' /\
    pop' = map (fun a => tr_x (fst a)) (kept ++ new) /\ fit' = map snd (kept ++ new) /\
    argmin fit' = Some i /\ nth_error pop' i = Some x /\ nth_error fit' i = Some f /\
    ages' = upd (map (fun a => tr_age (fst a)) (kept ++ new)) i 0 /\ best_eq xb fxb x f xb' fxb').
  apply (tr_sound _ E _ S0 _ _ _) in Ex; [exact Ex|]. clear Ex. fold C l. unfold foa_iter. cbv zeta.
  assert (T1 : concat (map (fun x => repeat x (fo_lsc p)) (map tr_x (filter (fun t => tr_age t =? 0) (map2 Tree pop ages)))) =
               flat_map (fun a => if snd a =? 0 then repeat (fst a) (fo_lsc p) else []) (combine pop ages)).
  { clear. revert ages. induction pop as [|x pop IH]; intros [|a ages]; simpl; auto. destruct (a =? 0); simpl; rewrite <- IH; auto. }
  assert (T2 : map (fun t => Tree (tr_x t) (S (tr_age t))) (map2 Tree pop ages) = map (fun a => Tree (fst a) (snd a + 1)) (combine pop ages)).
  { clear. revert ages. induction pop as [|x pop IH]; intros [|a ages]; simpl; auto. rewrite IH, Nat.add_1_r. auto. }
  assert (T3 : map tr_x (filter (fun t => fo_life p <? tr_age t) (map (fun a => Tree (fst a) (snd a + 1)) (combine pop ages))) =
               map fst (filter (fun a => fo_life p <? snd a + 1) (combine pop ages))).
  { clear. induction (combine pop ages) as [|[x a] xs IH]; cbn [map filter fst snd tr_age]; auto. destruct (fo_life p <? a + 1); cbn [map tr_x fst]; rewrite ?IH; auto. }
  assert (T4 : filter (fun t => negb (fo_life p <? tr_age t)) (map (fun a => Tree (fst a) (snd a + 1)) (combine pop ages)) =
               map (fun a => Tree (fst a) (snd a + 1)) (filter (fun a => snd a + 1 <=? fo_life p) (combine pop ages))).
  { clear. induction (combine pop ages) as [|[x a] xs IH]; cbn [map filter fst snd tr_age]; auto. rewrite Nat.leb_antisym.
    destruct (fo_life p <? a + 1); cbn [negb map tr_x fst snd]; rewrite ?IH; auto. }
  rewrite T2, T3, T4. clear T2 T3 T4.
  assert (Dc : forall P, Forall (fun a => length (fst a) = c_dim C) (filter P (combine pop ages))).
  { intros P. apply Forall_forall. intros [x a] Hi. apply filter_In in Hi. destruct Hi as [Hi _]. apply in_combine_l in Hi. rewrite Forall_forall in Hd. exact (Hd _ Hi). }
  apply wp_bind. unfold foa_local. rewrite T1. clear T1.
  apply (w_mapM_tr _ _ _ _ (lseed_eq E F p)).
  { intros x Q0 l0 Hi H0. apply w_lseed_tr; auto. apply in_flat_map in Hi. destruct Hi as ([x0 a] & H1 & H2). cbn [fst snd] in H2. destruct (a =? 0); [|destruct H2]. apply repeat_spec in H2. subst x0.
    apply in_combine_l in H1. rewrite Forall_forall in Hd. exact (Hd _ H1). }
  intros seeds Hseeds. apply wp_bind. apply w_survival_tr. intros kept excess l1 Hs. apply wp_bind. cbn beta iota. apply w_transfer_tr.
  { unfold dims. apply Forall_app. split; [apply Forall_map; apply Dc|]. destruct Hs as (fs & rest & E1 & E2 & -> & _).
    apply Forall_map. apply Forall_forall. intros [t v] Hi.
    assert (Hc : In (t, v) (combine (map (fun a => Tree (fst a) (snd a + 1)) (filter (fun a => snd a + 1 <=? fo_life p) (combine pop ages)) ++ map (fun x => Tree x 0) seeds) fs)).
    { eapply Permutation_in; [apply Permutation_sym; exact E2|]. apply in_or_app. auto. }
    apply in_combine_l in Hc. cbn [fst]. apply in_app_or in Hc. destruct Hc as [Hc|Hc].
    - apply in_map_iff in Hc. destruct Hc as (a & <- & Ha). cbn [tr_x]. assert (D := Dc (fun a => snd a + 1 <=? fo_life p)). rewrite Forall_forall in D. exact (D _ Ha).
    - apply in_map_iff in Hc. destruct Hc as (x & <- & Hx). cbn [tr_x].
      assert (D : Forall (fun y => length y = c_dim C) seeds).
      { assert (D0 : Forall (fun x => length x = c_dim C) (flat_map (fun a => if snd a =? 0 then repeat (fst a) (fo_lsc p) else []) (combine pop ages))).
        { apply Forall_forall. intros y Hy. apply in_flat_map in Hy. destruct Hy as ([x0 a] & H1 & H2). cbn [fst snd] in H2. destruct (a =? 0); [|destruct H2]. apply repeat_spec in H2. subst x0.
          apply in_combine_l in H1. rewrite Forall_forall in Hd. exact (Hd _ H1). }
        clear - Hseeds D0 Hrl. induction Hseeds as [|x y xs ys H Hs IH]; [constructor|]. inversion D0; subst. constructor; auto. destruct H as (idx & t & _ & _ & Lt & _ & _ & (q0 & ->)). apply Hrl. congruence. }
      rewrite Forall_forall in D. exact (D _ Hx). }
  intros new l2 Ht. apply wp_bind. unfold take_best. destruct (argmin (map snd (kept ++ new))) as [i|] eqn:Ei; [|exact I].
  apply wp_bind. apply w_nthP_tr. intros x Ex. apply wp_bind. apply w_nthP_tr. intros f Ef. apply w_done.
  destruct (fltb f fxb) eqn:Q; apply w_done; unfold S0; exists seeds, kept, excess, new, l1, i, x, f; repeat (split; [assumption || reflexivity|]);
    (split; [unfold foa_rejuvenate; rewrite Ei; reflexivity|]); unfold best_eq; rewrite Q; auto.
Qed.

(** ** C79: CatSwarmOptimization *)
Lemma C79_all : forall F E p (X : exn -> Prop), let C := e_cfg E in
  cfg_ok C -> no_nan (e_prob E) -> repair_ok E -> 0 < ct_n p -> 0 < ct_smp p \/ ct_spc p = true -> fleb (fneg (ct_vmax p)) (ct_vmax p) = true ->
  (let k := fint F (fmul F (fnat F (ct_n p)) (ct_mr p)) in 0 <= k <= Z.of_nat (ct_n p))%Z \/ X EValue ->
  sound_run_x X E (cso F C p) /\ sizes_ok (fun n => n = ct_n p) E (cso F C p) /\ steps_ok leads E (cso F C p) /\
  (forall s w, reached E (cso F C p) s w -> length (r_par s) = ct_n p /\ Forall (vel_ok C p) (r_par s)).
Proof.
  intros F E p X C HC Hn Hr Hp Hs Hv HX.
  assert (G1 := cso_init_c C p X HC Hp Hv (cso_iter F C p)).
  assert (G3 : iter_r (KBX C X) (cso F C p) (CsoInv C p) leads).
  { intros pop fit xb fxb u l H. eapply wp_conseq0; [apply (cso_iter_c F C p X HC Hp Hs Hv HX pop fit xb fxb u l H)|].
    intros [[[[pop' fit'] xb'] fxb'] u'] l' (H1 & H2 & H3). split; auto. split; auto. }
  split; [|split; [|split]].
  - eapply (sound_run_c (inside C) X E (cso F C p)); [auto|auto|auto|exact G1|apply (iter_r_c _ _ _ _ G3)|].
    intros pop fit xb fxb u l [H _ _]. split; apply H.
  - eapply (sizes_c (inside C) X _ E (cso F C p)); [auto|auto|exact G1|apply (iter_r_c _ _ _ _ G3)|]. intros pop fit xb fxb u l [H _ _]. apply H.
  - exact (steps_c (inside C) X leads E (cso F C p) _ Hn Hr G1 G3).
  - intros s w HR. destruct (reach_c (inside C) X E (cso F C p) _ Hn Hr G1 (iter_r_c _ _ _ _ G3) s w HR) as [A1 A2 A3]. auto.
Qed.
Theorem C79_cso : forall F E p, let C := e_cfg E in
  cfg_ok C -> no_nan (e_prob E) -> repair_ok E -> 0 < ct_n p -> 0 < ct_smp p \/ ct_spc p = true -> fleb (fneg (ct_vmax p)) (ct_vmax p) = true ->
  sound_run_x (eq EValue) E (cso F C p) /\ sizes_ok (fun n => n = ct_n p) E (cso F C p) /\ steps_ok leads E (cso F C p) /\
  ((0 <= fint F (fmul F (fnat F (ct_n p)) (ct_mr p)) <= Z.of_nat (ct_n p))%Z -> sound_run E (cso F C p)).
Proof.
  intros F E p C HC Hn Hr Hp Hs Hv. destruct (C79_all F E p (eq EValue) HC Hn Hr Hp Hs Hv (or_intror eq_refl)) as (A1 & A2 & A3 & _).
  repeat (split; [assumption|]). intros Hm. apply (C79_all F E p (fun _ => False) HC Hn Hr Hp Hs Hv (or_introl Hm)).
Qed.
Theorem C79_cso_64 : forall E p, let C := e_cfg E in
  cfg_ok C -> no_nan (e_prob E) -> repair_ok E -> 0 < ct_n p -> 0 < ct_smp p \/ ct_spc p = true -> fleb (fneg (ct_vmax p)) (ct_vmax p) = true ->
  (Z.of_nat (ct_n p) <= 2 ^ 53)%Z -> fleb f0 (ct_mr p) = true -> fleb (ct_mr p) (Fin (2 ^ 1074)) = true ->
  sound_run E (cso b64ops C p).
Proof.
  intros E p C HC Hn Hr Hp Hs Hv H1 H2 H3. apply C79_cso; auto. apply share_ok_64; auto.
Qed.
(** the velocities of every state a run reaches are within max_velocity (or NaN) *)
Theorem C79_velocities : forall F E p s w, let C := e_cfg E in
  cfg_ok C -> no_nan (e_prob E) -> repair_ok E -> 0 < ct_n p -> 0 < ct_smp p \/ ct_spc p = true -> fleb (fneg (ct_vmax p)) (ct_vmax p) = true ->
  reached E (cso F C p) s w ->
  length (r_par s) = ct_n p /\
  Forall (fun v => length v = c_dim C /\ Forall (fun a => a = NaN \/ (fleb (fneg (ct_vmax p)) a = true /\ fleb a (ct_vmax p) = true)) v) (r_par s).
Proof.
  intros F E p s w C HC Hn Hr Hp Hs Hv HR. exact (proj2 (proj2 (proj2 (C79_all F E p (eq EValue) HC Hn Hr Hp Hs Hv (or_intror eq_refl)))) s w HR).
Qed.
(** tracing mode (cso.py:230-237) *)
Theorem C79_trace : forall F E p x v xb y f v' wd wd', let C := e_cfg E in let d := c_dim C in
  length x = d -> length v = d -> length xb = d ->
  exec E (cso_trace F C p x v xb) wd = (Ret (y, f, v'), wd') ->
  exists r t, length r = d /\ Forall in_unit r /\
    comps d v' (fun k c => c = clip_c (fneg (ct_vmax p)) (ct_vmax p) (fadd F (nth k v NaN) (fmul F (fmul F (nth k r NaN) (ct_c1 p)) (fsub F (nth k xb NaN) (nth k x NaN))))) /\
    comps d t (fun k c => c = fadd F (nth k x NaN) (nth k v' NaN)) /\ repaired E t y /\
    evaluated y f (log_of (c_opt C) (w_h wd)) (log_of (c_opt C) (w_h wd')).
Proof.
  intros F E p x v xb y f v' wd wd' C d Lx Lv Lb Ex. set (l := log_of (c_opt C) (w_h wd)).
  pose (S0 := fun (a : vec * num * vec) l' => let '(y, f, v') := a in exists r t, length r = d /\ Forall in_unit r /\
    comps d v' (fun k c => c = clip_c (fneg (ct_vmax p)) (ct_vmax p) (fadd F (nth k v NaN) (fmul F (fmul F (nth k r NaN) (ct_c1 p)) (fsub F (nth k xb NaN) (nth k x NaN))))) /\
    comps d t (fun k c => c = fadd F (nth k x NaN) (nth k v' NaN)) /\ repaired E t y /\ evaluated y f l l').
  apply (tr_sound _ E _ S0 _ _ _) in Ex; [exact Ex|]. clear Ex. fold C l. unfold cso_trace. apply wp_bind. rewrite Lv. apply w_random_vec_u. intros r Lr Hr. cbv zeta.
  set (v1 := map _ _). assert (L1 : length v1 = d) by (unfold v1; dl). apply wp_bind. apply w_repair_tr. intros z Hz. apply wp_bind. apply w_eval_tr. intros g l' Hg. apply w_done.
  exists r, (vadd F x v1). split; auto. split; auto. split; [split; auto; intros k Hk; unfold v1; nths d; reflexivity|]. split; [split; [dl|]; intros k Hk; nths d; reflexivity|]. auto.
Qed.
(** a copy in seeking mode (cso.py:189-198): the components of a random set move by the factor 1 + srd or all by 1 - srd; the set has
    int(dimension * cdc) members if that is between 0 and the dimension *)
Definition copy_eq (E : env) (F : fops) (p : cso_par) (x y : vec) (f : num) (l l' : elog) : Prop := let C := e_cfg E in let d := c_dim C in
  exists idx sel (up : bool) t, length idx = d /\ NoDup idx /\ (forall j, In j idx -> j < d) /\ sel = take_z (fint F (fmul F (fnat F d) (ct_cdc p))) idx /\
    comps d t (fun k c => let a := nth k x NaN in
      (In k sel -> c = if up then fadd F a (fmul F a (ct_srd p)) else fsub F a (fmul F a (ct_srd p))) /\ (~ In k sel -> c = a)) /\
    repaired E t y /\ evaluated y f l l'.
Lemma w_copy_tr : forall F E p x (Q : vec * num -> elog -> Prop) l, let C := e_cfg E in length x = c_dim C ->
  (forall y f l', copy_eq E F p x y f l l' -> Q (y, f) l') -> wp (K_tr E) (cso_copy F C p x) Q l.
Proof.
  intros F E p x Q l C Lx HQ. unfold cso_copy. apply wp_bind. unfold permutation. apply w_choice; auto. intros idx Li ND Hi. cbv zeta. apply wp_bind. apply w_integers; [lia|]. intros up Hu.
  apply wp_bind. apply w_repair_tr. intros z Hz. apply wp_bind. apply w_eval_tr. intros f l' Hf. apply w_done. apply HQ.
  exists idx, (take_z (fint F (fmul F (fnat F (c_dim C)) (ct_cdc p))) idx), (up =? 1). eexists. repeat (split; [solve [auto]|]). split; [|split; [exact Hz|exact Hf]].
  split; [rewrite Lx; apply map2_length; [apply seq_length|auto]|]. intros k Hk. cbv zeta. rewrite (nth_map2 _ _ _ _ _ _ _ (c_dim C) 0 NaN NaN); [|rewrite Lx; apply seq_length|auto|auto].
  rewrite Lx, seq_nth by auto. cbn [plus].
  destruct (existsb (Nat.eqb k) _) eqn:Q1.
  - split; [reflexivity|]. intros Hn. exfalso. apply Hn. apply existsb_exists in Q1. destruct Q1 as (j & Hj & Ej). apply Nat.eqb_eq in Ej. subst j. exact Hj.
  - split; [|reflexivity]. intros Hn. exfalso. assert (Q2 : existsb (Nat.eqb k) (take_z (fint F (fmul F (fnat F (c_dim C)) (ct_cdc p))) idx) = true) by (apply existsb_exists; exists k; split; [auto|apply Nat.eqb_refl]). congruence.
Qed.
Theorem C79_copy : forall F E p x y f wd wd', let C := e_cfg E in length x = c_dim C ->
  exec E (cso_copy F C p x) wd = (Ret (y, f), wd') -> copy_eq E F p x y f (log_of (c_opt C) (w_h wd)) (log_of (c_opt C) (w_h wd')).
Proof.
  intros F E p x y f wd wd' C Lx Ex. set (l := log_of (c_opt C) (w_h wd)).
  apply (tr_sound _ E _ (fun a l' => copy_eq E F p x (fst a) (snd a) l l') _ _ _) in Ex; [exact Ex|]. apply w_copy_tr; auto.
Qed.
(** roulette (cso.py:154-165): the first running sum that reaches the drawn share of the total; the first member if none does *)
Lemma first_true_before : forall bs i, first_true bs = Some i -> forall j, j < i -> nth_error bs j = Some false.
Proof.
  induction bs as [|b bs IH]; intros i H j Hj; simpl in H; [discriminate|]. destruct b; [injection H as <-; lia|]. destruct (first_true bs) as [k|]; [|discriminate]. injection H as <-.
  destruct j as [|j]; [reflexivity|]. apply (IH k eq_refl j). lia.
Qed.
Theorem C79_select : forall F E ws i wd wd', exec E (cso_select F ws) wd = (Ret i, wd') ->
  exists r c, in_unit r /\ ws <> [] /\ i < length ws /\ let cs := cumsum F ws in let t := fmul F r (last cs NaN) in
    nth_error cs i = Some c /\
    ((fleb t c = true /\ forall j b, j < i -> nth_error cs j = Some b -> fleb t b = false) \/ (i = 0 /\ forall b, In b cs -> fleb t b = false)).
Proof.
  intros F E ws i wd wd' Ex. unfold cso_select in Ex. assert (Lc := cumsum_len F ws). set (cs := cumsum F ws) in *. clearbody cs. cbv zeta in *.
  pose (S0 := fun i (l' : elog) => exists r c, in_unit r /\ ws <> [] /\ i < length ws /\ nth_error cs i = Some c /\
    ((fleb (fmul F r (last cs NaN)) c = true /\ forall j b, j < i -> nth_error cs j = Some b -> fleb (fmul F r (last cs NaN)) b = false) \/
     (i = 0 /\ forall b, In b cs -> fleb (fmul F r (last cs NaN)) b = false))).
  apply (tr_sound _ E _ S0 _ _ _) in Ex; [exact Ex|]. clear Ex. apply wp_bind. apply w_random_u. intros r Ur. unfold S0. clear S0.
  destruct cs as [|c0 cs0]; [exact I|]. apply w_done. assert (Hne : ws <> []) by (intros ->; discriminate). revert Lc. generalize (last (c0 :: cs0) NaN). intros t Lc.
  set (cs := c0 :: cs0) in *. assert (E0 : nth_error cs 0 = Some c0) by reflexivity. clearbody cs.
  set (bs := map (fun c => fleb (fmul F r t) c) cs).
  destruct (first_true bs) as [k|] eqn:Ek.
  - assert (B := first_true_before _ _ Ek). apply first_true_lt in Ek. unfold bs in Ek. rewrite nth_error_map in Ek. destruct (nth_error cs k) as [c|] eqn:Ec; [|discriminate]. injection Ek as Ek.
    exists r, c. split; auto. split; auto. split; [rewrite <- Lc; apply nth_error_Some; congruence|]. split; auto. left. split; auto.
    intros j b Hj Hb. specialize (B j Hj). unfold bs in B. rewrite nth_error_map, Hb in B. injection B as B. exact B.
  - apply first_true_none in Ek. exists r, c0. split; auto. split; auto. split; [destruct ws; [congruence|simpl; lia]|]. split; auto. right. split; auto.
    intros b Hb. destruct (fleb (fmul F r t) b) eqn:Q; auto. exfalso. apply Ek. apply in_map_iff. exists b. auto.
Qed.
(** seeking mode (cso.py:167-217): the cat moves to one of its copies (or stays, with spc); if the best candidate is better than the best known
    value, it is also written over a random cat *)
Theorem C79_seek : forall F E p x f pop fit fxb y g pop' fit' wd wd', let C := e_cfg E in length x = c_dim C ->
  exec E (cso_seek F C p x f pop fit fxb) wd = (Ret (y, g, pop', fit'), wd') ->
  exists cs, length cs = (if ct_spc p then ct_smp p - 1 else ct_smp p) /\ Forall (fun c => exists l l', copy_eq E F p x (fst c) (snd c) l l') cs /\
    let cand := if ct_spc p then cs ++ [(x, f)] else cs in
    In (y, g) cand /\
    ((pop' = pop /\ fit' = fit) \/
     exists k z b, k < ct_n p /\ In (z, b) cand /\ fltb b fxb = true /\ (Forall (fun v => v <> NaN) (map snd cand) -> forall c, In c cand -> fleb b (snd c) = true) /\ row_set pop pop' k z /\ row_set fit fit' k b).
Proof.
  intros F E p x f pop fit fxb y g pop' fit' wd wd' C Lx Ex. set (l := log_of (c_opt C) (w_h wd)).
  pose (S0 := fun (a : vec * num * list vec * list num) (l' : elog) => let '(y, g, pop', fit') := a in
    exists cs, length cs = (if ct_spc p then ct_smp p - 1 else ct_smp p) /\ Forall (fun c => exists l l', copy_eq E F p x (fst c) (snd c) l l') cs /\
    let cand := if ct_spc p then cs ++ [(x, f)] else cs in
    In (y, g) cand /\
    ((pop' = pop /\ fit' = fit) \/
     exists k z b, k < ct_n p /\ In (z, b) cand /\ fltb b fxb = true /\ (Forall (fun v => v <> NaN) (map snd cand) -> forall c, In c cand -> fleb b (snd c) = true) /\ row_set pop pop' k z /\ row_set fit fit' k b)).
  apply (tr_sound _ E _ S0 _ _ _) in Ex; [exact Ex|]. clear Ex. fold C l. unfold cso_seek. apply wp_bind.
  eapply wp_conseq0.
  { apply wp_repeatM with (I := fun (cs : list (vec * num)) (l' : elog) => Forall (fun c => exists l l', copy_eq E F p x (fst c) (snd c) l l') cs); [constructor|].
    intros bs l' _ Hb. apply w_copy_tr; auto. intros z h l1 Hz. apply Forall_app. split; auto. constructor; auto. exists l', l1. exact Hz. }
  intros cs l' (Hcs & Lcs). cbv zeta. set (cand := if ct_spc p then cs ++ [(x, f)] else cs). destruct (argmax (map snd cand)) as [iw|]; [|exact I]. destruct (argmin (map snd cand)) as [ib|] eqn:Eib; [|exact I].
  apply wp_bind. apply w_nthP_tr. intros wo _. apply wp_bind. apply w_nthP_tr. intros be Hbe. apply wp_bind.
  apply wp_conseq0 with (Q := fun (a : list vec * list num) (l' : elog) => let '(pop', fit') := a in (pop' = pop /\ fit' = fit) \/
     exists k z b, k < ct_n p /\ In (z, b) cand /\ fltb b fxb = true /\ (Forall (fun v => v <> NaN) (map snd cand) -> forall c, In c cand -> fleb b (snd c) = true) /\ row_set pop pop' k z /\ row_set fit fit' k b).
  - destruct (fltb be fxb) eqn:Q; [|apply w_done; auto]. apply wp_bind. destruct (Nat.eq_dec (ct_n p) 0) as [Z|Z]; [rewrite Z; exact I|]. apply w_integers; [lia|]. intros k Hk.
    destruct (first_true _) as [j|] eqn:Ej; [|exact I]. apply first_true_lt in Ej. rewrite nth_error_map in Ej. destruct (nth_error (map snd cand) j) as [b|] eqn:Eb; [|discriminate]. injection Ej as Ej. apply feqb_eq in Ej. subst b.
    apply wp_bind. apply w_nthP_tr. intros z Ez. apply wp_bind. apply w_setP_tr. intros H1. apply wp_bind. apply w_setP_tr. intros H2. apply w_done. right.
    exists k, z, be. split; auto. split; [|split; [auto|split; [|auto]]].
    2: { intros Hf c Hc. destruct (argmin_spec (map snd cand)) as (b0 & m & A1 & A2 & A3 & _); [intros Z0; rewrite Z0 in Eib; discriminate|auto|]. rewrite Eib in A1. injection A1 as <-. rewrite Hbe in A2. injection A2 as <-.
      apply In_nth_error in Hc. destruct Hc as [q Hq]. apply (A3 q). rewrite nth_error_map, Hq. reflexivity. }
    rewrite nth_error_map in Ez, Eb. destruct (nth_error cand j) as [[z' b']|] eqn:Ec; [|discriminate].
    injection Ez as <-. injection Eb as <-. eapply nth_error_In; eauto.
  - intros [pop1 fit1] l2 H. apply wp_bind. apply wp_conseq0 with (Q := fun (_ : nat) (_ : elog) => True); [apply wp_any|]. intros s l3 _.
    apply wp_bind. apply w_nthP_tr. intros [z b] Hz. apply w_done. exists cs. split; auto. split; auto. split; [eapply nth_error_In; eauto|exact H].
Qed.

(** the cats in tracing mode (cso.py:142-152) *)
Theorem C79_tracing : forall F E p ks wd wd', exec E (cso_tracing F p) wd = (Ret ks, wd') ->
  Z.of_nat (length ks) = fint F (fmul F (fnat F (ct_n p)) (ct_mr p)) /\ NoDup ks /\ forall k, In k ks -> k < ct_n p.
Proof.
  intros F E p ks wd wd' Ex.
  apply (tr_sound _ E _ (fun ks _ => Z.of_nat (length ks) = fint F (fmul F (fnat F (ct_n p)) (ct_mr p)) /\ NoDup ks /\ forall k, In k ks -> k < ct_n p) _ _ _) in Ex; [exact Ex|].
  unfold cso_tracing. cbv zeta. destruct (_ <? 0)%Z eqn:Q; [exact I|]. apply Z.ltb_ge in Q. apply w_choice_tr. intros js L ND Hj. split; [rewrite L; apply Z2Nat.id; auto|]. auto.
Qed.
(** a cat in the set traces, the others seek (cso.py:265-276) *)
Theorem C79_modes : forall F C p ks xb fxb s k, (In k ks -> cso_step F C p ks xb fxb s k =
    (let* x := nthP (ca_pop s) k in let* f := nthP (ca_fit s) k in let* v := nthP (ca_v s) k in
     let* (y, g, v') := cso_trace F C p x v xb in
     let* pop := setP (ca_pop s) k y in let* fit := setP (ca_fit s) k g in let* vs := setP (ca_v s) k v' in Done (Cats pop fit vs))) /\
  (~ In k ks -> cso_step F C p ks xb fxb s k =
    (let* x := nthP (ca_pop s) k in let* f := nthP (ca_fit s) k in
     let* (y, g, pop, fit) := cso_seek F C p x f (ca_pop s) (ca_fit s) fxb in
     let* pop' := setP pop k y in let* fit' := setP fit k g in Done (Cats pop' fit' (ca_v s)))).
Proof.
  intros F C p ks xb fxb s k. unfold cso_step. destruct (existsb (Nat.eqb k) ks) eqn:Q.
  - split; [reflexivity|]. intros Hn. exfalso. apply Hn. apply existsb_exists in Q. destruct Q as (j & Hj & Ej). apply Nat.eqb_eq in Ej. subst j. exact Hj.
  - split; [|reflexivity]. intros Hn. exfalso. assert (Q2 : existsb (Nat.eqb k) ks = true) by (apply existsb_exists; exists k; split; [auto|apply Nat.eqb_refl]). congruence.
Qed.

(** ** Runs of C76 and C79 that never end when only the number of evaluations is limited *)
(** one bee: there is no food source, an iteration does nothing *)
Theorem C76_one : forall F E p fuel s w, let C := e_cfg E in ab_n p < 2 -> c_max_iters C = LInf ->
  state_after E (abc F C p fuel) 0 = Some (s, w) -> stopping_condition C (w_ts w) = false -> never_ends E (abc F C p fuel).
Proof.
  intros F E p fuel s w C Hp Hi S0 St. assert (Hf : ab_food p = 0) by (unfold ab_food; apply Nat.div_small; auto).
  apply (quiet_endless E (abc F C p fuel) (fun _ => True) s w Hi); auto.
  intros s1 _. cbn [a_iter abc]. unfold abc_iter. rewrite Hf. cbn [for_range seq foldM bind]. destruct fuel; cbn [abc_onlookers]; rewrite Hf; cbn [Nat.leb bind quiet]; exact I.
Qed.
(** seeking cats with one candidate, the cat itself *)
Theorem C79_endless : forall F E p s w, let C := e_cfg E in 0 < ct_n p -> ct_smp p <= 1 -> ct_spc p = true -> fint F (fmul F (fnat F (ct_n p)) (ct_mr p)) = 0%Z ->
  c_max_iters C = LInf -> state_after E (cso F C p) 0 = Some (s, w) -> length (r_pop s) = ct_n p -> length (r_fit s) = ct_n p -> stopping_condition C (w_ts w) = false ->
  never_ends E (cso F C p).
Proof.
  intros F E p s w C Hn Hs Hc Hm Hi S0 L1 L2 St.
  apply (quiet_endless E (cso F C p) (fun s => length (r_pop s : list vec) = ct_n p /\ length (r_fit s) = ct_n p) s w Hi); auto.
  clear s w S0 L1 L2 St. intros s [L1 L2]. cbn [a_iter cso]. unfold cso_iter. apply quiet_bind. unfold cso_tracing. rewrite Hm. cbn [Z.ltb Z.compare Z.to_nat choice choice_from quiet].
  apply quiet_bind. eapply quiet_conseq.
  - apply (quiet_range _ _ _ (fun s => length (ca_pop s) = ct_n p /\ length (ca_fit s) = ct_n p)); [auto|]. intros t k Hk [M1 M2]. rewrite L1 in Hk.
    unfold cso_step. apply quiet_bind. apply quiet_nthP; [lia|]. intros x _. apply quiet_bind. apply quiet_nthP; [lia|]. intros f _. cbn [existsb]. apply quiet_bind.
    apply quiet_conseq with (P := fun r => let '(y, g, pop, fit) := r in length pop = ct_n p /\ length fit = ct_n p).
    + unfold cso_seek. rewrite Hc. replace (ct_smp p - 1) with 0 by lia. cbn [repeatM bind app map snd fst argmax argmin argmax_from argmin_from].
      destruct (is_nan f); cbn [nthP nth_error bind]; apply quiet_bind.
      all: apply quiet_conseq with (P := fun r => let '(pop, fit) := r in length pop = ct_n p /\ length fit = ct_n p); [|intros [pop fit] [M3 M4]; apply quiet_bind; unfold cso_select; cbv zeta; apply quiet_bind; cbn [quiet random]; intros r;
        set (ws := cso_weights F [f] f f); assert (Lw : length (cumsum F ws) = 1) by (rewrite cumsum_len; apply cso_weights_len);
        destruct (cumsum F ws) as [|c [|c2 cs]]; try discriminate; cbn [last map first_true]; destruct (fleb _ _); cbn [option_map quiet]; apply quiet_bind; cbn [nthP nth_error quiet fst snd]; auto].
      all: destruct (fltb f (r_fxb s)) eqn:Q; cbn [quiet]; auto.
      all: try (destruct (ct_n p) as [|m] eqn:Em; [lia|]; cbn [integers bind quiet]; intros i Hi1; cbn [first_true]; assert (Ff : feqb f f = true) by (apply feqb_refl; intros ->; discriminate); rewrite Ff; cbn [bind nthP nth_error];
        apply quiet_bind; apply quiet_setP; [lia|]; apply quiet_bind; apply quiet_setP; [lia|]; cbn [quiet]; rewrite !upd_length; auto).
    + intros [[[y g] pop] fit] [M3 M4]. apply quiet_bind. apply quiet_setP; [lia|]. apply quiet_bind. apply quiet_setP; [lia|]. cbn [quiet ca_pop ca_fit]. rewrite !upd_length. auto.
  - intros t [M1 M2]. apply quiet_bind. unfold take_best. destruct (argmin (ca_fit t)) as [i|] eqn:Ea; [|destruct (ca_fit t); [simpl in M2; lia|discriminate]].
    apply argmin_range in Ea. apply quiet_bind. apply quiet_nthP; [lia|]. intros x _. apply quiet_bind. apply quiet_nthP; [lia|]. intros f _. destruct (fltb f _); cbn [quiet]; auto.
Qed.

(** ** The hypotheses are met, and the models at work *)
Module ExBasic2.
  Definition C9 := Cfg Minimization 2 [N' 0; N' 0] [N' 1; N' 1] (LFin 13) (LFin 4) NInf.
  Definition E9 := exenv C9 lin.
  (** no limit on the evaluations *)
  Definition C0 := Cfg Minimization 2 [N' (-3); N' (-3)] [N' 3; N' 3] LInf (LFin 4) NInf.
  Definition E0 := exenv C0 sq.
  (** no limit on the iterations *)
  Definition CE := Cfg Minimization 2 [N' 0; N' 0] [N' 1; N' 1] (LFin 13) LInf NInf.
  Definition EE := exenv CE lin.
  Definition pi := q 13 4.
  Definition hp := HHOPar 3 (q 1 4).
  Definition ap := ABCPar 6 1.
  Definition mp := MBOPar 5 (q 1 2) (q 5 4) 2 (q 1 2) true.
  Definition fp := FOAPar 2 2 3 1 1 (q 1 2).
  Definition cp := CSOPar 3 (q 3 8) (q 2 1) 2 true (q 7 8) (q 1 4) (q 1 2).
  Lemma C9_ok : cfg_ok C9.
  Proof. split; [reflexivity|]. split; [reflexivity|]. repeat constructor. Qed.
  Lemma C0_ok : cfg_ok C0.
  Proof. split; [reflexivity|]. split; [reflexivity|]. repeat constructor. Qed.
  Lemma CE_ok : cfg_ok CE.
  Proof. split; [reflexivity|]. split; [reflexivity|]. repeat constructor. Qed.
  Example hyps : cfg_ok C9 /\ no_nan (e_prob E9) /\ repair_ok E9 /\ 0 < hh_n hp /\ 0 < ab_n ap /\ 0 < mb_n mp /\ mb_np1 fxx mp <= mb_n mp /\
    mb_np1 fxx mp <> 1 /\ 2 <= mb_np2 fxx mp /\ 2 <= c_dim C9 /\ mb_keep mp < mb_n mp /\ lim_reached 0 (c_max_iters C9) = false /\
    0 < fo_n fp /\ 0 < fo_area fp /\ 0 < fo_life fp /\ fo_lsc fp <= c_dim C9 /\ fo_gsc fp <= c_dim C9 /\
    0 < ct_n cp /\ 0 < ct_smp cp /\ fleb (fneg (ct_vmax cp)) (ct_vmax cp) = true /\
    (0 <= fint fxx (fmul fxx (fnat fxx (ct_n cp)) (ct_mr cp)) <= Z.of_nat (ct_n cp))%Z.
  Proof.
    split; [exact C9_ok|]. split; [apply lin_no_nan|]. split; [exact (clip_ok C9 lin fl8 in7 C9_ok)|].
    repeat (split; [vm_compute; solve [reflexivity|discriminate|lia]|]). vm_compute. discriminate.
  Qed.
  Example det : (exists g, deterministic g E9) /\ keeps_inside E9.
  Proof. split; [exists (lin_from 1); intros h x v H; cbn in H; injection H as <-; reflexivity|intros p x Hx; apply (clip_keeps C9 p x Hx)]. Qed.
  Example det0 : exists g, deterministic g E0.
  Proof. exists sq_from. intros h x v H. cbn in H. injection H as <-. reflexivity. Qed.
  (** the parameters of C76_abc_64, C78_rate_64 and C79_cso_64 *)
  Example hyps64 : 0 < c_dim C9 /\ (Z.of_nat (c_dim C9) <= 2 ^ 53)%Z /\ (Z.of_nat (ab_n ap) <= 2 ^ 53)%Z /\ (Z.of_nat (ct_n cp) <= 2 ^ 53)%Z /\
    fleb f0 (ct_mr cp) = true /\ fleb (ct_mr cp) (Fin (2 ^ 1074)) = true /\ fleb f0 (fo_rate fp) = true /\ fleb (fo_rate fp) (flit b64ops 1 1) = true.
  Proof. repeat (split; [vm_compute; solve [reflexivity|discriminate|lia]|]). vm_compute. reflexivity. Qed.
  Example hho_trace : trace E9 (hho fxx C9 hp) 9 =
    (Ret ([0; 0], 0), [[8192; 40960]; [24576; 24576]; [40960; 8192]; [1024; 0]; [26880; 1792]; [40960; 8192];
    [464; 0]; [464; 0]; [0; 0]; [0; 0]; [0; 0]; [0; 0]; [0; 0]])%Z.
  Proof. vm_compute. reflexivity. Qed.
  Example abc_trace : trace E9 (abc fxx C9 ap 40) 9 =
    (Ret ([0; 0], 0), [[8192; 40960]; [24576; 40960]; [57344; 57344]; [40960; 24576]; [40960; 8192]; [57344;
    8192]; [0; 40960]; [24576; 38912]; [65536; 57344]; [57344; 57344]; [24576; 36608]; [0; 26624]; [0; 0]])%Z.
  Proof. vm_compute. reflexivity. Qed.
  Example abc_trace64 : trace E9 (abc b64ops C9 ap 40) 9 =
    (Ret ([0; 0], 0), [[8192; 40960]; [24576; 40960]; [57344; 57344]; [40960; 24576]; [40960; 8192]; [57344;
    8192]; [0; 40960]; [24576; 38912]; [65536; 57344]; [57344; 57344]; [24576; 36608]; [0; 26624]; [0; 0]])%Z.
  Proof. vm_compute. reflexivity. Qed.
  Example mbo_trace : trace E9 (mbo fxx C9 pi mp) 9 =
    (Ret ([8192; 24576], 57344), [[8192; 40960]; [24576; 24576]; [40960; 8192]; [57344; 57344]; [8192; 40960];
    [24576; 40960]; [8192; 24576]; [40960; 40960]; [40960; 40960]; [40960; 40960]; [8192; 24576]; [24576;
    40960]; [40960; 40960]])%Z.
  Proof. vm_compute. reflexivity. Qed.
  Example foa_trace : trace E9 (foa fxx C9 fp) 9 =
    (Ret ([24576; 11468], 47513), [[8192; 40960]; [24576; 24576]; [8192; 40960]; [24576; 24576]; [8192;
    49152]; [32768; 24576]; [24576; 24576]; [32768; 24576]; [8192; 40960]; [24576; 11468]; [19660; 24576];
    [8192; 24576]; [24576; 11468]])%Z.
  Proof. vm_compute. reflexivity. Qed.
  Example foa_trace64 : trace E9 (foa b64ops C9 fp) 9 =
    (Ret ([24576; 11468], 47513), [[8192; 40960]; [24576; 24576]; [8192; 40960]; [24576; 24576]; [8192;
    49152]; [32768; 24576]; [24576; 24576]; [32768; 24576]; [8192; 40960]; [24576; 11468]; [19660; 24576];
    [8192; 24576]; [24576; 11468]])%Z.
  Proof. vm_compute. reflexivity. Qed.
  Example cso_trace_ : trace E9 (cso fxx C9 cp) 9 =
    (Ret ([0; 0], 0), [[8192; 40960]; [24576; 24576]; [40960; 8192]; [0; 8192]; [24576; 30720]; [51200; 8192];
    [0; 0]; [24576; 30720]; [51200; 8192]; [0; 0]; [24576; 30720]; [51200; 8192]; [0; 0]])%Z.
  Proof. vm_compute. reflexivity. Qed.
  Example cso_trace64 : trace E9 (cso b64ops C9 cp) 9 =
    (Ret ([0; 0], 0), [[8192; 40960]; [24576; 24576]; [40960; 8192]; [0; 8192]; [24576; 30720]; [51200; 8192];
    [0; 0]; [24576; 30720]; [51200; 8192]; [0; 0]; [24576; 30720]; [51200; 8192]; [0; 0]])%Z.
  Proof. vm_compute. reflexivity. Qed.
  (** states for the step theorems *)
  Definition pop := [[q 1 2; q 1 4]; [q 1 1; q 0 1]; [q 0 1; q 0 1]; [q 1 8; q 1 1]; [q 1 4; q 3 4]].
  Definition fit := [q 1 1; q 3 4; q 1 8; q 2 1; q 3 2].
  Definition w0 := World (task_init C9) [] 0.
  Definition sv (x : vec) : list Z := map scl x.
  Definition shown {A B} (f : A -> B) (r : outcome A * world) : outcome B := match fst r with Ret a => Ret (f a) | Raise e => Raise e end.
  Example states_ok : Forall (fun x => length x = c_dim C9) pop /\ length pop = mb_n mp /\ mb_np1 fxx mp <= length pop /\ mb_keep mp <= length pop /\
    (forall q0 x, length x = c_dim C9 -> length (e_rep E9 q0 x) = c_dim C9).
  Proof.
    split; [repeat constructor|]. split; [reflexivity|]. split; [vm_compute; lia|]. split; [vm_compute; lia|].
    intros q0 [|a [|b [|c x]]] H; try discriminate. reflexivity.
  Qed.
  Example hawk_shown : shown (map sv) (exec E9 (mapM (hho_move fxx C9 hp (q 3 4) (q 3 8) [q 1 4; q 1 8] pop fit) [0; 1; 2; 3; 4]) w0) =
    Ret [[5824; 0]; [7744; 0]; [0; 0]; [12352; 2720]; [16384; 4352]]%Z.
  Proof. vm_compute. reflexivity. Qed.
  Example bee_shown : shown (fun s => (map (fun a => sv (fst a)) (co_pop s), co_tr s)) (exec E9 (abc_employed fxx C9 ap (Colony (combine pop fit) [0; 3; 0]%Z [q 0 1; q 0 1] (q 1 8)) 1) w0) =
    Ret ([[32768; 16384]; [40960; 8192]; [0; 0]; [8192; 65536]; [16384; 49152]], [0; 0; 0])%Z.
  Proof. vm_compute. reflexivity. Qed.
  Example onlooker_shown : shown (fun s => (map (fun a => sv (fst a)) (co_pop s), co_tr s)) (exec E9 (abc_onlooker fxx C9 ap 40 (Colony (combine pop fit) [0; 3; 2]%Z [q 0 1; q 0 1] (q 1 8)) 1) w0) =
    Ret ([[32768; 16384]; [65536; 0]; [8192; 40960]; [8192; 65536]; [16384; 49152]], [0; 4; 0])%Z.
  Proof. vm_compute. reflexivity. Qed.
  Example migrate_shown : shown (map sv) (exec E9 (mbo_migrate fxx C9 mp pop) w0) =
    Ret [[32768; 0]; [8192; 65536]; [65536; 0]; [8192; 65536]; [16384; 49152]]%Z.
  Proof. vm_compute. reflexivity. Qed.
  Example adjust_shown : shown (map sv) (exec E9 (mbo_adjust fxx C9 pi mp 0 [q 0 1; q 0 1] pop) w0) =
    Ret [[32768; 16384]; [65536; 0]; [0; 0]; [851968; 65536]; [65536; 65536]]%Z.
  Proof. vm_compute. reflexivity. Qed.
  Example elite_shown : shown (fun r => let '(pop', fit', _, _, _) := r in (map sv pop', sv fit')) (exec E9 (mbo_iter fxx C9 pi mp pop fit [q 0 1; q 0 1] (q 1 8) None) w0) =
    Ret ([[32768; 0]; [32768; 0]; [65536; 0]; [32768; 16384]; [65536; 0]], [32768; 32768; 65536; 65536;
    65536])%Z.
  Proof. vm_compute. reflexivity. Qed.
  Example lseed_shown : shown sv (exec E9 (foa_lseed fxx C9 fp [q 1 2; q 1 4]) w0) =
    Ret [19660; 16384]%Z.
  Proof. vm_compute. reflexivity. Qed.
  Example gseed_shown : shown sv (exec E9 (foa_gseed C9 fp [q 1 2; q 1 4]) w0) =
    Ret [40960; 16384]%Z.
  Proof. vm_compute. reflexivity. Qed.
  Example survival_shown : shown (fun r => (map (fun t => sv (tr_x (fst t))) (fst r), map sv (snd r))) (exec E9 (foa_survival fp (map (fun x => Tree x 0) pop)) w0) =
    Ret ([[0; 0]; [32768; 16384]; [65536; 0]], [[16384; 49152]; [8192; 65536]])%Z.
  Proof. vm_compute. reflexivity. Qed.
  Example forest_shown : shown (fun r => let '(pop', fit', _, _, ages') := r in (map sv pop', sv fit', map Z.of_nat ages')) (exec E9 (foa_iter fxx C9 fp pop fit [q 0 1; q 0 1] (q 1 8) [0; 2; 1; 0; 1]) w0) =
    Ret ([[0; 0]; [19660; 16384]; [32768; 16384]; [40960; 0]; [8192; 24576]], [0; 52428; 65536; 40960; 57344],
    [0; 0; 1; 0; 0])%Z.
  Proof. vm_compute. reflexivity. Qed.
  Example tracing_shown : shown (fun r => let '(y, f, v) := r in (sv y, scl f, sv v)) (exec E9 (AlgBasic2.cso_trace fxx C9 cp [q 1 2; q 1 4] [q 1 8; q (-1) 8] [q 0 1; q 0 1]) w0) =
    Ret ([32768; 0], 32768, [0; (-28672)])%Z.
  Proof. vm_compute. reflexivity. Qed.
  Example copy_shown : shown (fun r => (sv (fst r), scl (snd r))) (exec E9 (cso_copy fxx C9 cp [q 1 2; q 1 4]) w0) =
    Ret ([40960; 16384], 73728)%Z.
  Proof. vm_compute. reflexivity. Qed.
  Example select_shown : shown Z.of_nat (exec E9 (cso_select fxx [q 1 8; q 1 2; q 1 4; q 1 8]) (World (task_init C9) [] 3)) =
    Ret 1%Z.
  Proof. vm_compute. reflexivity. Qed.
  Example seek_shown : shown (fun r => let '(y, g, pop', fit') := r in (sv y, scl g, map sv pop', sv fit')) (exec E9 (cso_seek fxx C9 cp [q 1 2; q 1 4] (q 1 1) (firstn 3 pop) (firstn 3 fit) (q 2 1)) w0) =
    Ret ([32768; 16384], 65536, [[32768; 16384]; [32768; 16384]; [0; 0]], [65536; 65536; 8192])%Z.
  Proof. vm_compute. reflexivity. Qed.
  Example modes_shown : shown (map Z.of_nat) (exec E9 (cso_tracing fxx (CSOPar 3 (q 3 4) (q 2 1) 2 true (q 7 8) (q 1 4) (q 1 2))) w0) =
    Ret [2; 0]%Z.
  Proof. vm_compute. reflexivity. Qed.
End ExBasic2.

Definition Cm (m : Z) := Cfg Minimization 2 [N' 0; N' 0] [N' 1; N' 1] (LFin m) (LFin 4) NInf.
Lemma Cm_ok : forall m, cfg_ok (Cm m).
Proof. intros m. split; [reflexivity|]. split; [reflexivity|]. repeat constructor. Qed.
(** C75, refuted part: a dive that improved on the best is evaluated again; when the budget ends between the two, the result is not the
    best value evaluated *)
Theorem C75_best_refuted : exists E p k, let C := e_cfg E in
  cfg_ok C /\ no_nan (e_prob E) /\ repair_ok E /\ 0 < hh_n p /\
  (exists x v wd ev y u, run_body E (hho fxx C p) (fun _ => None) k (World (task_init C) [] 0) = (Ret (x, v), wd, ev) /\ In (y, Ret u) (w_h wd) /\ better (c_opt C) u v = true) /\
  ~ best_run E (hho fxx C p).
Proof.
  exists (exenv (Cm 7) lin), ExBasic2.hp, 9. cbv zeta. split; [apply Cm_ok|]. split; [apply lin_no_nan|]. split; [exact (clip_ok (Cm 7) lin fl8 in7 (Cm_ok 7))|]. split; [vm_compute; lia|].
  apply run_lost_best. vm_compute. reflexivity.
Qed.
(** C76, refuted part: a food source whose counter has passed the limit is kept (abc.py:211 looks at the counter of the last source only) *)
Theorem C76_limit_refuted : exists E p fuel, let C := e_cfg E in
  cfg_ok C /\ no_nan (e_prob E) /\ repair_ok E /\ idx_ok b64ops (c_dim C) /\ idx_ok b64ops (ab_food p) /\
  exists s wd t, reached E (abc b64ops C p fuel) s wd /\ In t (r_par s : list Z) /\ (ab_limit p < t)%Z.
Proof.
  exists (exenv (box 2 0 1 (LFin 60)) sq), (ABCPar 8 2), 60. cbv zeta. assert (B : cfg_ok (box 2 0 1 (LFin 60))) by (split; [reflexivity|]; split; [reflexivity|]; repeat constructor).
  split; [exact B|]. split; [apply sq_no_nan|]. split; [exact (clip_ok _ sq fl8 in7 B)|]. split; [apply idx_ok_64; vm_compute; [lia|discriminate]|]. split; [apply idx_ok_64; vm_compute; [lia|discriminate]|].
  pose (E := exenv (box 2 0 1 (LFin 60)) sq). pose (A := abc b64ops (e_cfg E) (ABCPar 8 2) 60).
  destruct (state_check E A 1 (fun s w => existsb (fun t => (2 <? t)%Z) (r_par s : list Z))) as (s & w & Hs & Hc); [vm_compute; reflexivity|].
  apply existsb_exists in Hc. destruct Hc as (t & Ht & Hc). exists s, w, t. split; [exact Hs|]. split; [exact Ht|]. apply Z.ltb_lt in Hc. exact Hc.
Qed.
(** C76, refuted part: one bee, 13 evaluations allowed, no end *)
Theorem C76_one_refuted : exists E p fuel k, let C := e_cfg E in
  cfg_ok C /\ no_nan (e_prob E) /\ repair_ok E /\ 0 < ab_n p /\ c_max_evals C = LFin k /\ never_ends E (abc b64ops C p fuel).
Proof.
  exists ExBasic2.EE, (ABCPar 1 100), 9, 13%Z. cbv zeta. split; [exact ExBasic2.CE_ok|]. split; [apply lin_no_nan|]. split; [exact (clip_ok _ lin fl8 in7 ExBasic2.CE_ok)|]. split; [vm_compute; lia|]. split; [reflexivity|].
  pose (A := abc b64ops (e_cfg ExBasic2.EE) (ABCPar 1 100) 9).
  assert (Q : match state_after ExBasic2.EE A 0 with Some (s, w) => stopping_condition ExBasic2.CE (w_ts w) = false | None => False end) by (vm_compute; reflexivity).
  destruct (state_after ExBasic2.EE A 0) as [[s w]|] eqn:Es; [|contradiction].
  apply (C76_one b64ops ExBasic2.EE (ABCPar 1 100) 9 s w); auto.
Qed.
(** C77, refuted parts: the new butterflies are evaluated twice and only the second evaluation counts *)
Theorem C77_best_refuted : exists E pi p k, let C := e_cfg E in
  cfg_ok C /\ no_nan (e_prob E) /\ repair_ok E /\ mb_np1 fxx p <> 1 /\ 2 <= mb_np2 fxx p /\ mb_keep p < mb_n p /\
  (exists x v wd ev y u, run_body E (mbo fxx C pi p) (fun _ => None) k (World (task_init C) [] 0) = (Ret (x, v), wd, ev) /\ In (y, Ret u) (w_h wd) /\ better (c_opt C) u v = true) /\
  ~ best_run E (mbo fxx C pi p).
Proof.
  exists (exenv (Cm 8) lin), (q 13 4), (MBOPar 5 (q 1 2) (q 5 8) 0 (q 1 8) false), 9. cbv zeta. split; [apply Cm_ok|]. split; [apply lin_no_nan|]. split; [exact (clip_ok (Cm 8) lin fl8 in7 (Cm_ok 8))|].
  split; [vm_compute; discriminate|]. split; [vm_compute; lia|]. split; [vm_compute; lia|]. apply run_lost_best. vm_compute. reflexivity.
Qed.
(** keep = population_size: no evaluation is refused, and the result is not the best value evaluated *)
Theorem C77_keep_refuted : exists E pi p k, let C := e_cfg E in
  cfg_ok C /\ no_nan (e_prob E) /\ repair_ok E /\ (exists g, deterministic g E) /\ c_max_evals C = LInf /\ mb_keep p = mb_n p /\
  (exists x v wd ev y u, run_body E (mbo fxx C pi p) (fun _ => None) k (World (task_init C) [] 0) = (Ret (x, v), wd, ev) /\ In (y, Ret u) (w_h wd) /\ better (c_opt C) u v = true) /\
  ~ best_run E (mbo fxx C pi p).
Proof.
  exists ExBasic2.E0, (q 13 4), (MBOPar 4 (q 1 2) (q 1 4) 4 (q 1 8) false), 9. cbv zeta. split; [exact ExBasic2.C0_ok|]. split; [apply sq_no_nan|]. split; [exact (clip_ok _ sq fl8 in7 ExBasic2.C0_ok)|].
  split; [exact ExBasic2.det0|]. split; [reflexivity|]. split; [reflexivity|]. apply run_lost_best. vm_compute. reflexivity.
Qed.
(** C77, refuted part: exceptions when a part has fewer than two butterflies or there is only one component *)
Theorem C77_parts_refuted : exists E p1 p2, let C := e_cfg E in
  cfg_ok C /\ no_nan (e_prob E) /\ repair_ok E /\ mb_np1 fxx p1 = 1 /\ mb_np2 fxx p2 = 1 /\
  own_exn E (mbo fxx C (q 13 4) p1) 9 = Some EValue /\ own_exn E (mbo fxx C (q 13 4) p2) 9 = Some EValue /\
  ~ best_run E (mbo fxx C (q 13 4) p1) /\ ~ best_run E (mbo fxx C (q 13 4) p2).
Proof.
  exists ExBasic2.E9, (MBOPar 3 (q 1 8) (q 5 8) 0 (q 0 1) true), (MBOPar 3 (q 3 8) (q 5 4) 2 (q 0 1) true). cbv zeta. destruct ExBasic2.hyps as (H1 & H2 & H3 & _).
  split; [exact H1|]. split; [exact H2|]. split; [exact H3|]. split; [vm_compute; reflexivity|]. split; [vm_compute; reflexivity|]. 
  assert (Q1 : own_exn ExBasic2.E9 (mbo fxx (e_cfg ExBasic2.E9) (q 13 4) (MBOPar 3 (q 1 8) (q 5 8) 0 (q 0 1) true)) 9 = Some EValue) by (vm_compute; reflexivity).
  assert (Q2 : own_exn ExBasic2.E9 (mbo fxx (e_cfg ExBasic2.E9) (q 13 4) (MBOPar 3 (q 3 8) (q 5 4) 2 (q 0 1) true)) 9 = Some EValue) by (vm_compute; reflexivity).
  split; [exact Q1|]. split; [exact Q2|]. split; [apply (run_raises (fun _ => False) _ _ _ _ Q1); [discriminate|exact (fun x => x)]|apply (run_raises (fun _ => False) _ _ _ _ Q2); [discriminate|exact (fun x => x)]].
Qed.
Theorem C77_one_component_refuted : exists E p, let C := e_cfg E in
  cfg_ok C /\ no_nan (e_prob E) /\ repair_ok E /\ c_dim C = 1 /\ mb_np1 fxx p <> 1 /\ 2 <= mb_np2 fxx p /\
  own_exn E (mbo fxx C (q 13 4) p) 9 = Some EIndex /\ ~ best_run E (mbo fxx C (q 13 4) p).
Proof.
  exists (exenv (box 1 0 1 (LFin 40)) lin), ExBasic2.mp. cbv zeta. assert (B : cfg_ok (box 1 0 1 (LFin 40))) by (split; [reflexivity|]; split; [reflexivity|]; repeat constructor).
  split; [exact B|]. split; [apply lin_no_nan|]. split; [exact (clip_ok _ lin fl8 in7 B)|]. split; [reflexivity|]. split; [vm_compute; discriminate|]. split; [vm_compute; lia|].
  assert (Q1 : own_exn (exenv (box 1 0 1 (LFin 40)) lin) (mbo fxx (box 1 0 1 (LFin 40)) (q 13 4) ExBasic2.mp) 9 = Some EIndex) by (vm_compute; reflexivity).
  split; [exact Q1|]. apply (run_raises (fun _ => False) _ _ _ _ Q1); [discriminate|exact (fun x => x)].
Qed.
(** C78, refuted part: the parameters the theorem excludes make a run raise ValueError *)
Theorem C78_parameters_refuted : exists E, let C := e_cfg E in cfg_ok C /\ no_nan (e_prob E) /\ repair_ok E /\
  Forall (fun p => own_exn E (foa fxx C p) 9 = Some EValue /\ ~ best_run E (foa fxx C p))
    [FOAPar 2 0 3 0 1 (q 1 2); FOAPar 2 2 3 (S (c_dim C)) 1 (q 1 2); FOAPar 2 2 3 1 (S (c_dim C)) (q 1 2); FOAPar 2 2 3 1 1 (q 2 1)].
Proof.
  exists ExBasic2.E9. cbv zeta. destruct ExBasic2.hyps as (H1 & H2 & H3 & _). split; [exact H1|]. split; [exact H2|]. split; [exact H3|].
  assert (G : forall p, own_exn ExBasic2.E9 (foa fxx (e_cfg ExBasic2.E9) p) 9 = Some EValue -> own_exn ExBasic2.E9 (foa fxx (e_cfg ExBasic2.E9) p) 9 = Some EValue /\ ~ best_run ExBasic2.E9 (foa fxx (e_cfg ExBasic2.E9) p)).
  { intros p H. split; [exact H|]. apply (run_raises (fun _ => False) _ _ _ _ H); [discriminate|exact (fun x => x)]. }
  repeat (constructor; [apply G; vm_compute; reflexivity|]). constructor.
Qed.
(** C79, refuted part: the best candidate is written over a random cat, which may be the next one to move; no evaluation is refused *)
Theorem C79_best_refuted : exists E p k, let C := e_cfg E in
  cfg_ok C /\ no_nan (e_prob E) /\ repair_ok E /\ (exists g, deterministic g E) /\ c_max_evals C = LInf /\ 0 < ct_n p /\ 0 < ct_smp p /\
  (0 <= fint fxx (fmul fxx (fnat fxx (ct_n p)) (ct_mr p)) <= Z.of_nat (ct_n p))%Z /\
  (exists x v wd ev y u, run_body E (cso fxx C p) (fun _ => None) k (World (task_init C) [] 0) = (Ret (x, v), wd, ev) /\ In (y, Ret u) (w_h wd) /\ better (c_opt C) u v = true) /\
  ~ best_run E (cso fxx C p).
Proof.
  pose (CC := Cfg Minimization 2 [N' (-3); N' (-3)] [N' 3; N' 3] LInf (LFin 1) NInf). assert (B : cfg_ok CC) by (split; [reflexivity|]; split; [reflexivity|]; repeat constructor).
  exists (exenv CC sq), (CSOPar 3 (q 3 8) (q 2 1) 3 false (q 7 8) (q 1 2) (q 1 2)), 9. cbv zeta. split; [exact B|]. split; [apply sq_no_nan|]. split; [exact (clip_ok _ sq fl8 in7 B)|].
  split; [exists sq_from; intros h x v H; cbn in H; injection H as <-; reflexivity|]. split; [reflexivity|]. split; [vm_compute; lia|]. split; [vm_compute; lia|]. split; [vm_compute; split; discriminate|].
  apply run_lost_best. vm_compute. reflexivity.
Qed.
(** C79, refuted part: a mixture ratio outside [0, 1], or no candidates, make a run raise ValueError *)
Theorem C79_parameters_refuted : exists E, let C := e_cfg E in cfg_ok C /\ no_nan (e_prob E) /\ repair_ok E /\
  Forall (fun p => own_exn E (cso fxx C p) 9 = Some EValue /\ ~ best_run E (cso fxx C p))
    [CSOPar 3 (q 3 2) (q 2 1) 2 true (q 7 8) (q 1 4) (q 1 2); CSOPar 3 (q (-1) 2) (q 2 1) 2 true (q 7 8) (q 1 4) (q 1 2); CSOPar 3 (q 3 8) (q 2 1) 0 false (q 7 8) (q 1 4) (q 1 2)].
Proof.
  exists ExBasic2.E9. cbv zeta. destruct ExBasic2.hyps as (H1 & H2 & H3 & _). split; [exact H1|]. split; [exact H2|]. split; [exact H3|].
  assert (G : forall p, own_exn ExBasic2.E9 (cso fxx (e_cfg ExBasic2.E9) p) 9 = Some EValue -> own_exn ExBasic2.E9 (cso fxx (e_cfg ExBasic2.E9) p) 9 = Some EValue /\ ~ best_run ExBasic2.E9 (cso fxx (e_cfg ExBasic2.E9) p)).
  { intros p H. split; [exact H|]. apply (run_raises (fun _ => False) _ _ _ _ H); [discriminate|exact (fun x => x)]. }
  repeat (constructor; [apply G; vm_compute; reflexivity|]). constructor.
Qed.
Theorem C79_endless_refuted : exists E p k, let C := e_cfg E in
  cfg_ok C /\ no_nan (e_prob E) /\ repair_ok E /\ 0 < ct_n p /\ ct_smp p = 1 /\ c_max_evals C = LFin k /\ never_ends E (cso b64ops C p).
Proof.
  pose (p := CSOPar 3 (q 0 1) (q 2 1) 1 true (q 7 8) (q 1 4) (q 1 2)).
  exists ExBasic2.EE, p, 13%Z. cbv zeta. split; [exact ExBasic2.CE_ok|]. split; [apply lin_no_nan|]. split; [exact (clip_ok _ lin fl8 in7 ExBasic2.CE_ok)|]. split; [vm_compute; lia|]. split; [reflexivity|]. split; [reflexivity|].
  pose (A := cso b64ops (e_cfg ExBasic2.EE) p).
  assert (Q : match state_after ExBasic2.EE A 0 with Some (s, w) => length (r_pop s : list vec) = 3 /\ length (r_fit s) = 3 /\ stopping_condition ExBasic2.CE (w_ts w) = false | None => False end) by (vm_compute; repeat split).
  destruct (state_after ExBasic2.EE A 0) as [[s w]|] eqn:Es; [|contradiction]. destruct Q as (Q1 & Q2 & Q3).
  apply (C79_endless b64ops ExBasic2.EE p s w); auto; vm_compute; solve [reflexivity|lia].
Qed.

Print Assumptions C75_hho.
Print Assumptions C75_full.
Print Assumptions C75_move.
Print Assumptions C75_iter.
Print Assumptions C76_abc.
Print Assumptions C76_abc_64.
Print Assumptions C76_employed.
Print Assumptions C76_onlooker.
Print Assumptions C76_rest.
Print Assumptions C76_rest_run.
Print Assumptions C76_two.
Print Assumptions C77_mbo.
Print Assumptions C77_clean.
Print Assumptions C77_full.
Print Assumptions C77_migrate.
Print Assumptions C77_adjust.
Print Assumptions C77_elite.
Print Assumptions C78_foa.
Print Assumptions C78_rate_64.
Print Assumptions C78_ages.
Print Assumptions C78_local.
Print Assumptions C78_global.
Print Assumptions C78_survival.
Print Assumptions C78_iter.
Print Assumptions C79_cso.
Print Assumptions C79_cso_64.
Print Assumptions C79_velocities.
Print Assumptions C79_trace.
Print Assumptions C79_copy.
Print Assumptions C79_select.
Print Assumptions C79_seek.
Print Assumptions C79_tracing.
Print Assumptions C79_modes.
Print Assumptions C76_one.
Print Assumptions C79_endless.
Print Assumptions C75_best_refuted.
Print Assumptions C76_limit_refuted.
Print Assumptions C76_one_refuted.
Print Assumptions C77_best_refuted.
Print Assumptions C77_keep_refuted.
Print Assumptions C77_parts_refuted.
Print Assumptions C77_one_component_refuted.
Print Assumptions C78_parameters_refuted.
Print Assumptions C79_best_refuted.
Print Assumptions C79_parameters_refuted.
Print Assumptions C79_endless_refuted.
