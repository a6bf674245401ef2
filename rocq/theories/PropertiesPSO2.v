(** The steps of the particle swarm variants (C136: center and mutated swarms; C137: opposition; C138: comprehensive learning). *)
From Coq Require Import ZArith Lia Bool List Permutation Sorting.Sorted.
From Verif Require Import Num Task TaskSpec TaskProofs TaskProofs2 Prog Wp GetBest Run RunSpec RunProofs RunProofs2
  AlgoLib Fops AlgTac StepSpec StepLib AlgPSO AlgPSOProofs SortLib B64 ExLib PropertiesPSO PropertiesMod.
Import ListNotations.
Open Scope nat_scope.

(** the programs f s 0, f s 1, ... of a loop over the indexes, run one after the other *)
Inductive in_turn {S} (E : env) (f : S -> nat -> prog S) : list nat -> S -> world -> S -> world -> Prop :=
| it_nil : forall s w, in_turn E f [] s w s w
| it_cons : forall i is s w s1 w1 s2 w2, exec E (f s i) w = (Ret s1, w1) -> in_turn E f is s1 w1 s2 w2 -> in_turn E f (i :: is) s w s2 w2.
Lemma exec_in_turn : forall S E (f : S -> nat -> prog S) is s w s' w', exec E (foldM f is s) w = (Ret s', w') -> in_turn E f is s w s' w'.
Proof.
  intros S E f is. induction is as [|i is IH]; intros s w s' w' H.
  - cbn in H. injection H as <- <-. constructor.
  - cbn [foldM] in H. rewrite exec_bind in H. destruct (exec E (f s i) w) as [[s1|e] w1] eqn:Q; [|discriminate]. econstructor; eauto.
Qed.
Definition log (E : env) (w : world) : elog := log_of (c_opt (e_cfg E)) (w_h w).

(** ** C136 *)
(** one particle of any of the swarms: it takes the velocity it is given, moves, is repaired and evaluated, and then becomes its own best if it is
    strictly better than that, and the global best if it is strictly better than that (with [nested], only if it also became its own best) *)
Theorem C136_particle : forall F E (uv : velocity) nested w lo hi s i wd s' wd',
  exec E (pso_particle F uv nested w lo hi s i) wd = (Ret s', wd') ->
  exists vi xi pbi pfi v' w1 x' f, nth_error (sw_v s) i = Some vi /\ nth_error (sw_pop s) i = Some xi /\ nth_error (sw_pb s) i = Some pbi /\ nth_error (sw_pbf s) i = Some pfi /\
    exec E (uv vi xi pbi (sw_xb s) w lo hi) wd = (Ret v', w1) /\ repaired E (vadd F xi v') x' /\ evaluated x' f (log E w1) (log E wd') /\
    row_set (sw_v s) (sw_v s') i v' /\ row_set (sw_pop s) (sw_pop s') i x' /\ row_set (sw_fit s) (sw_fit s') i f /\
    (if fltb f pfi then row_set (sw_pb s) (sw_pb s') i x' /\ row_set (sw_pbf s) (sw_pbf s') i f else sw_pb s' = sw_pb s /\ sw_pbf s' = sw_pbf s) /\
    (if fltb f (sw_fxb s) && (if nested then fltb f pfi else true) then sw_xb s' = x' /\ sw_fxb s' = f else sw_xb s' = sw_xb s /\ sw_fxb s' = sw_fxb s).
Proof.
  intros F E uv nested w lo hi s i wd s' wd' Ex. unfold pso_particle in Ex. unfold nthP in Ex.
  destruct (nth_error (sw_v s) i) as [vi|] eqn:N1; [|discriminate]. destruct (nth_error (sw_pop s) i) as [xi|] eqn:N2; [|discriminate]. destruct (nth_error (sw_pb s) i) as [pbi|] eqn:N3; [|discriminate].
  cbn [bind] in Ex. rewrite exec_bind in Ex. destruct (exec E (uv vi xi pbi (sw_xb s) w lo hi) wd) as [[v'|e] w1] eqn:Qv; [|discriminate].
  destruct (nth_error (sw_pbf s) i) as [pfi|] eqn:N4.
  2: { exfalso. revert Ex. match goal with |- exec E ?p w1 = _ -> _ => assert (W : wp (K_tr E) p (fun _ _ => False) (log E w1)) end.
       { ts. exact I. } intros Ex. exact (tr_sound _ E _ _ _ _ _ W Ex). }
  apply (tr_sound _ E _ (fun s' l' => exists x' f, repaired E (vadd F xi v') x' /\ evaluated x' f (log E w1) l' /\
    row_set (sw_v s) (sw_v s') i v' /\ row_set (sw_pop s) (sw_pop s') i x' /\ row_set (sw_fit s) (sw_fit s') i f /\
    (if fltb f pfi then row_set (sw_pb s) (sw_pb s') i x' /\ row_set (sw_pbf s) (sw_pbf s') i f else sw_pb s' = sw_pb s /\ sw_pbf s' = sw_pbf s) /\
    (if fltb f (sw_fxb s) && (if nested then fltb f pfi else true) then sw_xb s' = x' /\ sw_fxb s' = f else sw_xb s' = sw_xb s /\ sw_fxb s' = sw_fxb s)) _ _ _) in Ex.
  - destruct Ex as (x' & f & Ex). exists vi, xi, pbi, pfi, v', w1, x', f. repeat (split; [solve [auto]|]). exact Ex.
  - fold (log E w1). apply wp_bind. apply w_setP_tr. intros Hv. apply wp_bind. apply w_repair_tr. intros x' Hx. apply wp_bind. apply w_setP_tr. intros Hp. apply wp_bind. apply w_eval_tr. intros f l' Hf.
    apply wp_bind. apply w_setP_tr. intros Hfit. apply wp_bind. apply w_done. cbv zeta.
    assert (T : fltb f (sw_fxb s) && (fltb f pfi || negb nested) = fltb f (sw_fxb s) && (if nested then fltb f pfi else true)) by (destruct nested; cbn [negb]; rewrite ?orb_false_r, ?orb_true_r; auto).
    rewrite T. destruct (fltb f pfi) eqn:Q.
    + apply wp_bind. apply w_setP_tr. intros Hb. apply wp_bind. apply w_setP_tr. intros Hbf. apply w_done. exists x', f. rewrite Q. cbn [sw_v sw_pop sw_fit sw_pb sw_pbf sw_xb sw_fxb]. repeat (split; [solve [auto]|]).
      destruct (fltb f (sw_fxb s) && (if nested then true else true)); auto.
    + apply wp_bind. apply w_done. apply wp_bind. apply w_done. exists x', f. rewrite Q. cbn [sw_v sw_pop sw_fit sw_pb sw_pbf sw_xb sw_fxb]. repeat (split; [solve [auto]|]).
      destruct (fltb f (sw_fxb s) && (if nested then false else true)); auto.
Qed.
(** an iteration of the plain swarm moves the particles in turn *)
Theorem C136_iteration : forall F E uv pop fit xb fxb t wd pop' fit' xb' fxb' t' wd',
  exec E (pso_iter F uv pop fit xb fxb t) wd = (Ret (pop', fit', xb', fxb', t'), wd') ->
  exists s', in_turn E (pso_particle F uv false (pt_w t) (pt_min t) (pt_max t)) (seq 0 (length pop)) (Swarm pop fit xb fxb (pt_pb t) (pt_pbf t) (pt_v t)) wd s' wd' /\
    pop' = sw_pop s' /\ fit' = sw_fit s' /\ xb' = sw_xb s' /\ fxb' = sw_fxb s' /\ pt_pb t' = sw_pb s' /\ pt_pbf t' = sw_pbf s' /\ pt_v t' = sw_v s' /\
    pt_w t' = pt_w t /\ pt_min t' = pt_min t /\ pt_max t' = pt_max t.
Proof.
  intros F E uv pop fit xb fxb t wd pop' fit' xb' fxb' t' wd' Ex. unfold pso_iter in Ex. rewrite exec_bind in Ex. unfold pso_moves, for_range in Ex. cbn [sw_pop] in Ex.
  destruct (exec E (foldM _ _ _) wd) as [[s|e] w1] eqn:Q; [|discriminate]. apply exec_in_turn in Q. cbn [exec] in Ex. injection Ex as <- <- <- <- <- <-. exists s. repeat (split; [solve [auto]|]). auto.
Qed.
(** w v + c1 r1 (pbest - x) r3 + c2 r2 (gbest - x) (1 - r3) with fresh numbers for every component *)
Definition mcu_velocity_eq (F : fops) (p : pso_par) (d : nat) (v x pb gb w u : vec) : Prop :=
  comps d u (fun j c => exists r1 r2 r3, in_unit r1 /\ in_unit r2 /\ in_unit r3 /\
    c = fadd F (fadd F (fmul F (nth j w NaN) (nth j v NaN))
                 (fmul F (fmul F (fmul F (ps_c1 p) r1) (fsub F (nth j pb NaN) (nth j x NaN))) r3))
               (fmul F (fmul F (fmul F (ps_c2 p) r2) (fsub F (nth j gb NaN) (nth j x NaN))) (fsub F (flit F 1 1) r3))).
Theorem C136_velocity : forall F E p v x pb gb w lo hi wd v' wd', let C := e_cfg E in
  length v = c_dim C -> length x = c_dim C -> length pb = c_dim C -> length gb = c_dim C -> length w = c_dim C ->
  exec E (update_velocity_mcu F C p v x pb gb w lo hi) wd = (Ret v', wd') ->
  log E wd' = log E wd /\ exists u, v' = ps_rep p u lo hi /\ mcu_velocity_eq F p (c_dim C) v x pb gb w u.
Proof.
  intros F E p v x pb gb w lo hi wd v' wd' C H1 H2 H3 H4 H5 Ex.
  apply (tr_sound _ E _ (fun v' l' => l' = log E wd /\ exists u, v' = ps_rep p u lo hi /\ mcu_velocity_eq F p (c_dim C) v x pb gb w u) _ _ _) in Ex; [exact Ex|].
  unfold update_velocity_mcu. apply wp_bind. apply w_random_vec_u. intros r3 L3 U3. apply wp_bind. apply w_random_vec_u. intros r1 L1 U1. apply wp_bind. apply w_random_vec_u. intros r2 L2 U2. apply w_done.
  split; auto. eexists. split; [reflexivity|]. split; [dl|]. intros j Hj.
  exists (nth j r1 NaN), (nth j r2 NaN), (nth j r3 NaN). split; [apply nth_in_unit; auto; lia|]. split; [apply nth_in_unit; auto; lia|]. split; [apply nth_in_unit; auto; lia|]. nths (c_dim C). reflexivity.
Qed.
(** c is the mean of the rows, component by component *)
Definition mean_eq (F : fops) (d : nat) (rows : list vec) (c : vec) : Prop :=
  comps d c (fun j a => a = fdiv F (match map (fun x => nth j x NaN) rows with [] => f0 | b :: bs => fold_left (fadd F) bs b end) (fnat F (length rows))).
Lemma centroid_eq : forall F d rows, Forall (fun x => length x = d) rows -> mean_eq F d rows (centroid F d rows).
Proof.
  intros F d rows H. unfold centroid.
  assert (G : forall rest x, length x = d -> Forall (fun x => length x = d) rest -> comps d (fold_left (vadd F) rest x) (fun j a => a = fold_left (fadd F) (map (fun x => nth j x NaN) rest) (nth j x NaN))).
  { induction rest as [|y rest IH]; intros x Hx Hr; cbn [fold_left map]; [split; auto|]. inversion Hr; subst. assert (L : length (vadd F x y) = length x) by (apply map2_length; auto).
    destruct (IH (vadd F x y) L) as [I1 I2]; auto. split; auto. intros j Hj. rewrite I2 by auto. f_equal. unfold vadd. rewrite (nth_map2 _ _ _ _ _ _ _ (length x) NaN NaN NaN); auto. }
  assert (S0 : comps d (sum_rows F d rows) (fun j a => a = match map (fun x => nth j x NaN) rows with [] => f0 | b :: bs => fold_left (fadd F) bs b end)).
  { destruct rows as [|x rest]; cbn [sum_rows map].
    - split; [apply repeat_length|]. intros j Hj. apply nth_error_nth. apply nth_error_repeat. auto.
    - inversion H; subst. apply G; auto. }
  destruct S0 as [S1 S2]. split; [rewrite map_length; auto|]. intros j Hj. rewrite <- (S2 j Hj). rewrite (nth_indep _ NaN (fdiv F NaN (fnat F (length rows)))) by (rewrite map_length; lia).
  exact (map_nth (fun a => fdiv F a (fnat F (length rows))) (sum_rows F d rows) NaN j).
Qed.
(** the center swarm: after the particles, the mean position is evaluated and becomes the best if it is not worse *)
Theorem C136_center : forall F E uv pop fit xb fxb t wd pop' fit' xb' fxb' t' wd', let C := e_cfg E in
  exec E (cpso_iter F C uv pop fit xb fxb t) wd = (Ret (pop', fit', xb', fxb', t'), wd') ->
  exists xb1 fxb1 w1 c fc, exec E (pso_iter F uv pop fit xb fxb t) wd = (Ret (pop', fit', xb1, fxb1, t'), w1) /\
    (Forall (fun x => length x = c_dim C) pop' -> mean_eq F (c_dim C) pop' c) /\ evaluated c fc (log E w1) (log E wd') /\
    if fleb fc fxb1 then xb' = c /\ fxb' = fc else xb' = xb1 /\ fxb' = fxb1.
Proof.
  intros F E uv pop fit xb fxb t wd pop' fit' xb' fxb' t' wd' C Ex. unfold cpso_iter in Ex. rewrite exec_bind in Ex.
  destruct (exec E (pso_iter F uv pop fit xb fxb t) wd) as [[[[[[pop1 fit1] xb1] fxb1] t1]|e] w1] eqn:Q; [|discriminate]. cbv zeta in Ex. set (c := centroid F (c_dim C) pop1) in *.
  apply (tr_sound _ E _ (fun r l' => exists fc, evaluated c fc (log E w1) l' /\ r = if fleb fc fxb1 then (pop1, fit1, c, fc, t1) else (pop1, fit1, xb1, fxb1, t1)) _ _ _) in Ex.
  2: { apply wp_bind. apply w_eval_tr. intros fc l' He. apply w_done. exists fc. auto. }
  destruct Ex as (fc & He & Hr). exists xb1, fxb1, w1, c, fc.
  destruct (fleb fc fxb1) eqn:Ql; injection Hr as -> -> -> -> ->; (split; [reflexivity|]); (split; [apply centroid_eq|]); (split; [exact He|]); rewrite ?Ql; auto.
Qed.
(** k trials around the best point: each adds the direction scaled by a random point of the box, repairs, evaluates and keeps it if it is not worse *)
Inductive trials (E : env) (F : fops) (va : vec) : nat -> vec * num -> vec * num -> elog -> elog -> Prop :=
| tl_0 : forall b l, trials E F va 0 b b l l
| tl_S : forall k b b' l l1 l2 u g fg, trials E F va k b b' l l1 -> inside (e_cfg E) u ->
    repaired E (vadd F (fst b') (vmul F va u)) g -> evaluated g fg l1 l2 -> trials E F va (S k) b (if fleb fg (snd b') then (g, fg) else b') l l2.
(** m is the largest of xs: NaN as soon as there is one *)
Definition largest (xs : list num) (m : num) : Prop :=
  (In NaN xs -> m = NaN) /\ (~ In NaN xs -> In m xs /\ forall a, In a xs -> fleb a m = true).
Lemma vmax_eq : forall xs m, vmax xs = Ret m -> largest xs m.
Proof.
  intros [|a r] m H; [discriminate|]. injection H as H. set (f := fun m b => match m with NaN => NaN | _ => match b with NaN => NaN | _ => fmaxb m b end end) in *.
  assert (N : forall r, fold_left f r NaN = NaN) by (induction r0; auto).
  assert (G : forall r a, (a = NaN \/ In NaN r -> fold_left f r a = NaN) /\ (a <> NaN -> ~ In NaN r -> In (fold_left f r a) (a :: r) /\ forall b, In b (a :: r) -> fleb b (fold_left f r a) = true)).
  { induction r0 as [|b r0 IH]; intros c; cbn [fold_left].
    - split; [intros [->|[]]; auto|]. intros Hc _. split; [left; auto|]. intros b [<-|[]]. destruct c; simpl; auto; try congruence. apply Z.leb_refl.
    - split.
      + intros [->|[->|Hb]]; [apply N|replace (f c NaN) with NaN by (destruct c; auto); apply N|]. apply IH. auto.
      + intros Hc Hn. assert (Hb : b <> NaN) by (intros ->; apply Hn; left; auto). assert (Hf : f c b = fmaxb c b) by (destruct c, b; auto; congruence).
        assert (Hm : fmaxb c b <> NaN /\ (fmaxb c b = c \/ fmaxb c b = b) /\ fleb c (fmaxb c b) = true /\ fleb b (fmaxb c b) = true).
        { unfold fmaxb. destruct c as [| |x|], b as [| |y|]; try congruence; simpl; repeat split; auto; try discriminate; try apply Z.leb_refl; repeat match goal with |- context [Z.ltb ?a ?b] => destruct (Z.ltb_spec a b) | |- context [Z.leb ?a ?b] => destruct (Z.leb_spec a b) end; simpl; auto; try discriminate; try apply Z.leb_refl; try (apply Z.leb_le; lia); try lia. }
        rewrite Hf. destruct Hm as (M1 & M2 & M3 & M4). destruct (proj2 (IH (fmaxb c b)) M1) as [I1 I2]; [intros X; apply Hn; right; auto|].
        split; [destruct I1 as [I1|I1]; [rewrite <- I1; destruct M2 as [->| ->]; simpl; auto|simpl; auto]|].
        intros z [<-|[<-|Hz]]; [eapply fleb_trans; [exact M3|apply I2; left; auto]|eapply fleb_trans; [exact M4|apply I2; left; auto]|apply I2; right; auto]. }
  destruct (G r a) as [G1 G2]. split; rewrite <- H.
  - intros [->|Hi]; apply G1; auto.
  - intros Hn. apply G2; intros X; apply Hn; [left; auto|right; auto].
Qed.
(** the mutated swarms: after the base iteration, trials in the direction of the mean velocity, scaled so that its largest component is 1 *)
Theorem C136_mutated : forall F E k base pop fit xb fxb t wd pop' fit' xb' fxb' t' wd', let C := e_cfg E in cfg_ok C ->
  exec E (mutated_iter F C k base pop fit xb fxb t) wd = (Ret (pop', fit', xb', fxb', t'), wd') ->
  exists xb1 fxb1 w1 m mx, exec E (base pop fit xb fxb t) wd = (Ret (pop', fit', xb1, fxb1, t'), w1) /\
    (Forall (fun x => length x = c_dim C) (pt_v t') -> mean_eq F (c_dim C) (pt_v t') m) /\ largest (map (fabs F) m) mx /\
    trials E F (map (fun a => fdiv F a mx) m) k (xb1, fxb1) (xb', fxb') (log E w1) (log E wd').
Proof.
  intros F E k base pop fit xb fxb t wd pop' fit' xb' fxb' t' wd' C HC Ex. unfold mutated_iter in Ex. rewrite exec_bind in Ex.
  destruct (exec E (base pop fit xb fxb t) wd) as [[[[[[pop1 fit1] xb1] fxb1] t1]|e] w1] eqn:Q; [|discriminate]. set (m := centroid F (c_dim C) (pt_v t1)).
  apply (tr_sound _ E _ (fun r l' => exists mx b, largest (map (fabs F) m) mx /\ trials E F (map (fun a => fdiv F a mx) m) k (xb1, fxb1) b (log E w1) l' /\ r = (pop1, fit1, fst b, snd b, t1)) _ _ _) in Ex.
  - destruct Ex as (mx & [b fb] & H1 & H2 & H3). injection H3 as -> -> -> -> ->. exists xb1, fxb1, w1, m, mx. split; [reflexivity|]. split; [apply centroid_eq|]. auto.
  - fold (log E w1). apply wp_bind. unfold mean_direction. fold m. cbv zeta. apply wp_bind. apply w_lift_tr. intros mx Hm. apply vmax_eq in Hm. apply w_done. apply wp_bind. unfold mutations, for_range.
    set (va := map (fun a => fdiv F a mx) m). eapply wp_conseq0.
    { apply (wp_foldM _ _ _ _ (fun (rest : list nat) b l' => exists j, j + length rest = k /\ trials E F va j (xb1, fxb1) b (log E w1) l')).
      - exists 0. rewrite seq_length. split; auto. constructor.
      - intros i rest b l' _ (j & Hj & Ht). apply wp_bind. apply w_uniform_pt; auto. intros u Hu. apply wp_bind. apply w_repair_tr. intros g Hg. apply wp_bind. apply w_eval_tr. intros fg l2 Hf. apply w_done.
        exists (S j). split; [simpl in Hj; lia|]. econstructor; eauto. }
    intros b l' (j & Hj & Ht). simpl in Hj. assert (j = k) as -> by lia. destruct b as [b fb]. apply w_done. exists mx, (b, fb). auto.
Qed.

(** ** C137 *)
(** the mirror images of the rows in the middle of the box, evaluated in turn, compete with the rows for the places *)
Definition opposition (F : fops) (C : cfg) (pop : list vec) (fit : list num) (new : list (vec * num)) (l l' : elog) : Prop :=
  exists os fos all, Forall2 (fun x o => length x = c_dim C -> comps (c_dim C) o (fun j a => a = fsub F (fadd F (nth j (c_lower C) NaN) (nth j (c_upper C) NaN)) (nth j x NaN))) pop os /\
    evaluated_all os fos l l' /\ Permutation (combine (pop ++ os) (fit ++ fos)) all /\
    StronglySorted (fun a b => key_le (snd a) (snd b) = true) all /\ new = firstn (length pop) all.
Lemma w_opposition : forall F E pop fit (Q : list (vec * num) -> elog -> Prop) l, let C := e_cfg E in length (c_lower C) = c_dim C -> length (c_upper C) = c_dim C ->
  (forall new l', opposition F C pop fit new l l' -> Q new l') -> wp (K_tr E) (opposite_learning F C pop fit) Q l.
Proof.
  intros F E pop fit Q l C L1 L2 HQ. unfold opposite_learning. cbv zeta. set (os := map _ pop). apply wp_bind. apply w_mapM_eval_tr. intros fos l' He. apply w_done. apply HQ.
  exists os, fos, (sort_by (combine (pop ++ os) (fit ++ fos))). split; [|split; [exact He|split; [apply sort_by_perm|split; [apply sort_by_sorted|reflexivity]]]].
  subst os. clear He HQ. induction pop as [|x pop IH]; cbn [map]; constructor; auto. intros Hx. split; [dl|]. intros j Hj. nths (c_dim C). reflexivity.
Qed.
(** personal bests are replaced where the new row is strictly better *)
Definition improved (pb : list vec) (pbf : list num) (new : list (vec * num)) (pb' : list vec) (pbf' : list num) : Prop :=
  length pb' = length pb /\ length pbf' = length pb /\
  forall i x f y g, nth_error pb i = Some x -> nth_error pbf i = Some f -> nth_error new i = Some (y, g) ->
    if fltb g f then nth_error pb' i = Some y /\ nth_error pbf' i = Some g else nth_error pb' i = Some x /\ nth_error pbf' i = Some f.
Lemma improve_eq : forall pb pbf new, length pbf = length pb -> length new = length pb -> improved pb pbf new (map fst (improve pb pbf new)) (map snd (improve pb pbf new)).
Proof.
  induction pb as [|x pb IH]; intros [|f pbf] [|[y g] new] L1 L2; try discriminate.
  - split; [reflexivity|]. split; [reflexivity|]. intros [|i] ? ? ? ? H; discriminate.
  - injection L1 as L1. injection L2 as L2. destruct (IH pbf new L1 L2) as (I1 & I2 & I3). cbn [improve map]. split; [simpl; f_equal; auto|]. split; [simpl; f_equal; auto|].
    intros [|i] x0 f0 y0 g0 H1 H2 H3; cbn [nth_error] in *; [|eapply I3; eauto]. injection H1 as ->. injection H2 as ->. injection H3 as -> ->. destruct (fltb g0 f0); auto.
Qed.
Theorem C137_opposition : forall F E pop fit wd new wd', let C := e_cfg E in cfg_ok C -> exec E (opposite_learning F C pop fit) wd = (Ret new, wd') ->
  opposition F C pop fit new (log E wd) (log E wd').
Proof.
  intros F E pop fit wd new wd' C (L1 & L2 & _) Ex. apply (tr_sound _ E _ (fun new l' => opposition F C pop fit new (log E wd) l') _ _ _) in Ex; auto.
  apply w_opposition; auto.
Qed.
(** np.min / np.max of a column: NaN as soon as there is one, otherwise the smallest / largest entry *)
Definition column_ext (le : num -> num -> bool) (d : nat) (rows : list vec) (m : vec) : Prop :=
  comps d m (fun j a => let col := map (fun x => nth j x NaN) rows in (In NaN col -> a = NaN) /\ (~ In NaN col -> In a col /\ forall b, In b col -> le a b = true)).
Lemma rows_fold_ext : forall (f : num -> num -> num) (le : num -> num -> bool) d, (forall a b, a = NaN \/ b = NaN -> f a b = NaN) ->
  (forall a b, a <> NaN -> b <> NaN -> f a b <> NaN /\ (f a b = a \/ f a b = b) /\ le (f a b) a = true /\ le (f a b) b = true) ->
  (forall a b c, le a b = true -> le b c = true -> le a c = true) -> (forall a, a <> NaN -> le a a = true) ->
  forall rows m, Forall (fun x => length x = d) rows -> rows_fold f rows = Ret m -> column_ext le d rows m.
Proof.
  intros f le d Fn Ff Ft Fr [|x r] m H E; [discriminate|]. injection E as E. inversion_clear H as [|? ? Hx Hr].
  assert (N : forall r, fold_left f r NaN = NaN) by (induction r0; simpl; auto; rewrite Fn; auto).
  assert (S1 : forall r x, length x = d -> Forall (fun x => length x = d) r -> comps d (fold_left (map2 f) r x) (fun j a => a = fold_left f (map (fun x => nth j x NaN) r) (nth j x NaN))).
  { induction r0 as [|y r0 IH]; intros z Hz Hr0; cbn [fold_left map]; [split; auto|]. inversion_clear Hr0 as [|? ? Hy Hr1]. assert (L : length (map2 f z y) = d) by (apply map2_length; auto).
    destruct (IH (map2 f z y) L Hr1) as [I1 I2]. split; auto. intros j Hj. rewrite I2 by auto. f_equal. rewrite (nth_map2 _ _ _ _ _ _ _ d NaN NaN NaN); auto. }
  assert (G : forall r a, (a = NaN \/ In NaN r -> fold_left f r a = NaN) /\ (a <> NaN -> ~ In NaN r -> fold_left f r a <> NaN /\ In (fold_left f r a) (a :: r) /\ forall b, In b (a :: r) -> le (fold_left f r a) b = true)).
  { induction r0 as [|b r0 IH]; intros c; cbn [fold_left].
    - split; [intros [->|[]]; auto|]. intros Hc _. split; auto. split; [left; auto|]. intros b [<-|[]]. auto.
    - split.
      + intros [->|[->|Hb]]; [rewrite Fn by auto; apply N|rewrite Fn by auto; apply N|]. apply IH. auto.
      + intros Hc Hn. assert (Hb : b <> NaN) by (intros ->; apply Hn; left; auto). destruct (Ff c b Hc Hb) as (M1 & M2 & M3 & M4).
        destruct (proj2 (IH (f c b)) M1) as (I0 & I1 & I2); [intros X; apply Hn; right; auto|]. split; auto.
        split; [destruct I1 as [I1|I1]; [rewrite <- I1; destruct M2 as [->| ->]; simpl; auto|simpl; auto]|].
        intros z [<-|[<-|Hz]]; [eapply Ft; [apply I2; left; reflexivity|exact M3]|eapply Ft; [apply I2; left; reflexivity|exact M4]|apply I2; right; auto]. }
  rewrite <- E. destruct (S1 r x Hx Hr) as [S2 S3]. split; auto. intros j Hj. cbv zeta. rewrite S3 by auto. cbn [map]. destruct (G (map (fun x => nth j x NaN) r) (nth j x NaN)) as [G1 G2].
  split; [intros [Q|Q]; apply G1; auto|]. intros Q. apply G2; intros X; apply Q; [left; auto|right; auto].
Qed.
Lemma npmin2_ext : forall d rows m, Forall (fun x => length x = d) rows -> rows_fold npmin2 rows = Ret m -> column_ext fleb d rows m.
Proof.
  intros d rows m. apply (rows_fold_ext npmin2 fleb).
  - intros [| |x|] [| |y|] [H|H]; try discriminate; auto.
  - intros a b Ha Hb. unfold npmin2, fminb. destruct a as [| |x|], b as [| |y|]; try congruence; simpl; repeat split; auto; try discriminate; try apply Z.leb_refl;
      repeat match goal with |- context [Z.ltb ?a ?b] => destruct (Z.ltb_spec a b) | |- context [Z.leb ?a ?b] => destruct (Z.leb_spec a b) end; simpl; auto; try discriminate; try apply Z.leb_refl; try (apply Z.leb_le; lia); try lia.
  - intros a b c. apply fleb_trans.
  - intros [| |x|] Ha; simpl; auto; try congruence. apply Z.leb_refl.
Qed.
Lemma npmax2_ext : forall d rows m, Forall (fun x => length x = d) rows -> rows_fold npmax2 rows = Ret m -> column_ext (fun a b => fleb b a) d rows m.
Proof.
  intros d rows m. apply (rows_fold_ext npmax2 (fun a b => fleb b a)).
  - intros [| |x|] [| |y|] [H|H]; try discriminate; auto.
  - intros a b Ha Hb. unfold npmax2, fmaxb. destruct a as [| |x|], b as [| |y|]; try congruence; simpl; repeat split; auto; try discriminate; try apply Z.leb_refl;
      repeat match goal with |- context [Z.ltb ?a ?b] => destruct (Z.ltb_spec a b) | |- context [Z.leb ?a ?b] => destruct (Z.leb_spec a b) end; simpl; auto; try discriminate; try apply Z.leb_refl; try (apply Z.leb_le; lia); try lia.
  - intros a b c H1 H2. eapply fleb_trans; eauto.
  - intros [| |x|] Ha; simpl; auto; try congruence. apply Z.leb_refl.
Qed.
(** the limit on the iterations, as a number *)
Definition iter_limit (F : fops) (C : cfg) : num := match c_max_iters C with LInf => PInf | LFin m => fz F m end.
Theorem C137_iteration : forall F E p pop fit xb fxb t wd pop' fit' xb' fxb' t' wd', let C := e_cfg E in cfg_ok C -> length (pt_pbf t) = length (pt_pb t) ->
  length fit = length pop -> length (pt_pb t) = length pop ->
  exec E (ovcpso_iter F C p pop fit xb fxb t) wd = (Ret (pop', fit', xb', fxb', t'), wd') ->
  pt_w t' = pt_w t /\ exists r w0, in_unit r /\ exec E random wd = (Ret r, w0) /\ log E w0 = log E wd /\ if fltb r (ov_p0 p) then
    exists y g new, opposition F C pop fit ((y, g) :: new) (log E wd) (log E wd') /\ pop' = y :: map fst new /\ fit' = g :: map snd new /\
      improved (pt_pb t) (pt_pbf t) ((y, g) :: new) (pt_pb t') (pt_pbf t') /\ pt_v t' = pt_v t /\ pt_min t' = pt_min t /\ pt_max t' = pt_max t /\
      if fltb g fxb then xb' = y /\ fxb' = g else xb' = xb /\ fxb' = fxb
  else exists s' mn mx, let wgt := fsub F (ov_wmax p) (fmul F (fdiv F (fsub F (ov_wmax p) (ov_wmin p)) (iter_limit F C)) (fnat F (t_iters (w_ts wd) + 1))) in
      in_turn E (pso_particle F (update_velocity F C (ov_pso p)) true (repeat wgt (c_dim C)) (pt_min t) (pt_max t)) (seq 0 (length pop))
        (Swarm pop fit xb fxb (pt_pb t) (pt_pbf t) (pt_v t)) w0 s' wd' /\
      pop' = sw_pop s' /\ fit' = sw_fit s' /\ xb' = sw_xb s' /\ fxb' = sw_fxb s' /\ pt_pb t' = sw_pb s' /\ pt_pbf t' = sw_pbf s' /\ pt_v t' = sw_v s' /\
      pt_min t' = map (fmul F (ov_sigma p)) mn /\ pt_max t' = map (fmul F (ov_sigma p)) mx /\
      (Forall (fun x => length x = c_dim C) pop' -> column_ext fleb (c_dim C) pop' mn /\ column_ext (fun a b => fleb b a) (c_dim C) pop' mx).
Proof.
  intros F E p pop fit xb fxb t wd pop' fit' xb' fxb' t' wd' C HC Lp Lf Lb Ex. unfold ovcpso_iter in Ex. rewrite exec_bind in Ex.
  destruct (exec E random wd) as [[r|e] w0] eqn:Qr; [|discriminate].
  assert (R : in_unit r /\ log E w0 = log E wd /\ w_ts w0 = w_ts wd).
  { assert (R := Qr). apply (tr_sound _ E _ (fun r l' => in_unit r /\ l' = log E wd) _ _ _) in R; [|apply w_random_u; auto]. destruct R as [R1 R2]. split; auto. split; auto.
    revert Qr. clear. unfold random. cbn [exec]. intros Qr. injection Qr as _ <-. reflexivity. }
  destruct R as (R1 & R2 & R3). destruct (fltb r (ov_p0 p)) eqn:Qp.
  - rewrite exec_bind in Ex. destruct (exec E (opposite_learning F C pop fit) w0) as [[new|e] w1] eqn:Qo; [|discriminate]. apply C137_opposition in Qo; auto. rewrite R2 in Qo.
    cbv zeta in Ex. destruct new as [|[y g] new]; [discriminate|]. assert (Ln : length ((y, g) :: new) = length (pt_pb t)).
    { destruct Qo as (os & fos & all & O1 & O2 & O3 & O4 & ->). rewrite firstn_length. apply Permutation_length in O3. rewrite <- O3, combine_length, !app_length. apply Forall2_len in O1. lia. }
    assert (I := improve_eq (pt_pb t) (pt_pbf t) ((y, g) :: new) Lp Ln).
    destruct (fltb g fxb) eqn:Qg; cbn [exec] in Ex; injection Ex as <- <- <- <- <- <-; (split; [reflexivity|]); exists r, w0; rewrite Qp; repeat (split; [solve [auto]|]); exists y, g, new; rewrite Qg; repeat (split; [solve [auto]|]); auto.
  - rewrite exec_view in Ex. cbn [v_iters] in Ex. unfold ov_w in Ex. fold (iter_limit F C) in Ex. rewrite R3 in Ex. replace (S (t_iters (w_ts wd))) with (t_iters (w_ts wd) + 1) in Ex by lia.
    set (wgt := fsub F (ov_wmax p) _) in *. rewrite exec_bind in Ex. unfold pso_moves, for_range in Ex. cbn [sw_pop] in Ex. destruct (exec E (foldM _ _ _) w0) as [[s|e] w1] eqn:Q; [|discriminate]. apply exec_in_turn in Q.
    destruct (rows_fold npmin2 (sw_pop s)) as [mn|e] eqn:Qn; [|discriminate]. cbn [lift bind] in Ex. destruct (rows_fold npmax2 (sw_pop s)) as [mx|e] eqn:Qx; [|discriminate]. cbn [lift bind exec] in Ex.
    injection Ex as <- <- <- <- <- <-. split; [reflexivity|]. exists r, w0. rewrite Qp. repeat (split; [solve [auto]|]). exists s, mn, mx. repeat (split; [solve [auto]|]). intros H.
    split; [apply npmin2_ext; auto|apply npmax2_ext; auto].
Qed.
(** the starting population: the plain one after an opposition; the velocity limits are set the wrong way round *)
Theorem C137_init : forall F E p wd pop' fit' t' wd', let C := e_cfg E in cfg_ok C ->
  exec E (ovcpso_init F C p) wd = (Ret (pop', fit', t'), wd') ->
  exists pop fit t w1 new, exec E (pso_init C (ov_pso p)) wd = (Ret (pop, fit, t), w1) /\ opposition F C pop fit new (log E w1) (log E wd') /\ pop' = map fst new /\ fit' = map snd new /\
    (length (pt_pbf t) = length (pt_pb t) -> length new = length (pt_pb t) -> improved (pt_pb t) (pt_pbf t) new (pt_pb t') (pt_pbf t')) /\ pt_v t' = pt_v t /\ pt_w t' = pt_w t /\
    comps (c_dim C) (pt_min t') (fun j a => a = fmul F (ov_sigma p) (fsub F (nth j (c_upper C) NaN) (nth j (c_lower C) NaN))) /\
    comps (c_dim C) (pt_max t') (fun j a => a = fmul F (ov_sigma p) (fsub F (nth j (c_lower C) NaN) (nth j (c_upper C) NaN))).
Proof.
  intros F E p wd pop' fit' t' wd' C HC Ex. unfold ovcpso_init in Ex. rewrite exec_bind in Ex. destruct (exec E (pso_init C (ov_pso p)) wd) as [[[[pop fit] t]|e] w1] eqn:Q; [|discriminate].
  rewrite exec_bind in Ex. destruct (exec E (opposite_learning F C pop fit) w1) as [[new|e] w2] eqn:Qo; [|discriminate]. apply C137_opposition in Qo; auto. cbv zeta in Ex. cbn [exec] in Ex. injection Ex as <- <- <- <-.
  exists pop, fit, t, w1, new. repeat (split; [solve [auto]|]). cbn [pt_pb pt_pbf pt_v pt_w pt_min pt_max]. destruct HC as (L1 & L2 & _).
  split; [intros; apply improve_eq; auto|]. split; [reflexivity|]. split; [reflexivity|]. split; (split; [dl|intros j Hj; nths (c_dim C); reflexivity]).
Qed.

(** ** C138 *)
(** entry j of the exemplar of particle i: its own best or that of the better of two particles drawn at random *)
Definition exemplar (F : fops) (pc : num) (pb : list vec) (pbf : list num) (pbi ex : vec) : Prop :=
  comps (length pbi) ex (fun j a => exists r, in_unit r /\ if fltb pc r then nth_error pbi j = Some a else
    exists s1 s2 g1 g2 row, in_unit s1 /\ in_unit s2 /\ let k1 := Z.to_nat (fint F (fmul F s1 (fnat F (length pb)))) in let k2 := Z.to_nat (fint F (fmul F s2 (fnat F (length pb)))) in
      nth_error pbf k1 = Some g1 /\ nth_error pbf k2 = Some g2 /\ nth_error pb (if fltb g1 g2 then k1 else k2) = Some row /\ nth_error row j = Some a).
Lemma w_exemplar : forall F E i pc pb pbf (Q : vec -> elog -> Prop) l,
  (forall pbi ex, nth_error pb i = Some pbi -> exemplar F pc pb pbf pbi ex -> Q ex l) -> wp (K_tr E) (cl_exemplar F i pc pb pbf) Q l.
Proof.
  intros F E i pc pb pbf Q l HQ. unfold cl_exemplar. apply wp_bind. apply w_nthP_tr. intros pbi Hi.
  apply (w_mapM_pure _ _ _ _ (fun j a => exists r, in_unit r /\ if fltb pc r then nth_error pbi j = Some a else
    exists s1 s2 g1 g2 row, in_unit s1 /\ in_unit s2 /\ let k1 := Z.to_nat (fint F (fmul F s1 (fnat F (length pb)))) in let k2 := Z.to_nat (fint F (fmul F s2 (fnat F (length pb)))) in
      nth_error pbf k1 = Some g1 /\ nth_error pbf k2 = Some g2 /\ nth_error pb (if fltb g1 g2 then k1 else k2) = Some row /\ nth_error row j = Some a)).
  - intros j P _ HP. apply wp_bind. apply w_random_u. intros r Hr. destruct (fltb pc r) eqn:Qp.
    + apply w_nthP_tr. intros a Ha. apply HP. exists r. rewrite Qp. auto.
    + unfold rand_index. apply wp_bind. apply wp_bind. apply w_random_u. intros s1 H1. apply w_done. apply wp_bind. apply wp_bind. apply w_random_u. intros s2 H2. apply w_done.
      apply wp_bind. apply w_nthP_tr. intros g1 G1. apply wp_bind. apply w_nthP_tr. intros g2 G2. apply wp_bind. apply w_nthP_tr. intros row Hrow. apply w_nthP_tr. intros a Ha. apply HP.
      exists r. rewrite Qp. split; auto. exists s1, s2, g1, g2, row. auto 8.
  - intros ex Hex. apply (HQ pbi); auto. assert (L := Forall2_len _ _ _ _ _ Hex). rewrite seq_length in L. split; auto. intros j Hj.
    apply (Forall2_nth _ _ _ _ _ j j (nth j ex NaN) Hex); [rewrite (nth_error_nth' _ 0) by (rewrite seq_length; lia); rewrite seq_nth by lia; auto|apply nth_error_nth'; lia].
Qed.
(** w v + c r (exemplar - x) *)
Definition cl_velocity_eq (F : fops) (p : cl_par) (d : nat) (v x ex : vec) (w : num) (u : vec) : Prop :=
  comps d u (fun j a => exists r, in_unit r /\ a = fadd F (fmul F w (nth j v NaN)) (fmul F (fmul F (cl_c p) r) (fsub F (nth j ex NaN) (nth j x NaN)))).
Theorem C138_particle : forall F E p w pc lo hi s flag i wd s' flag' wd', let C := e_cfg E in length (c_lower C) = c_dim C -> length (c_upper C) = c_dim C ->
  exec E (clpso_particle F C p w pc lo hi (s, flag) i) wd = (Ret (s', flag'), wd') ->
  exists fl s1 w1, nth_error flag i = Some fl /\
    (if cl_m p <=? fl then exec E (pso_particle F (update_velocity F C (cl_pso p)) true (repeat f1 (c_dim C)) lo hi s i) wd = (Ret s1, w1) /\ row_set flag flag' i 0 else s1 = s /\ w1 = wd /\ flag' = flag) /\
    exists pci pbi ex vi xi u v' x', nth_error pc i = Some pci /\ nth_error (sw_pb s1) i = Some pbi /\ exemplar F pci (sw_pb s1) (sw_pbf s1) pbi ex /\
      nth_error (sw_v s1) i = Some vi /\ nth_error (sw_pop s1) i = Some xi /\
      (length vi = c_dim C -> length xi = c_dim C -> length pbi = c_dim C -> cl_velocity_eq F p (c_dim C) vi xi ex w u) /\ v' = ps_rep (cl_pso p) u lo hi /\ row_set (sw_v s1) (sw_v s') i v' /\
      x' = vadd F xi v' /\ row_set (sw_pop s1) (sw_pop s') i x' /\
      ((is_feasible C x' = Some false /\ log E wd' = log E w1 /\ sw_fit s' = sw_fit s1 /\ sw_pb s' = sw_pb s1 /\ sw_pbf s' = sw_pbf s1 /\ sw_xb s' = sw_xb s1 /\ sw_fxb s' = sw_fxb s1) \/
       (is_feasible C x' = Some true /\ exists f pf, evaluated x' f (log E w1) (log E wd') /\ row_set (sw_fit s1) (sw_fit s') i f /\ nth_error (sw_pbf s1) i = Some pf /\
         (if fltb f pf then row_set (sw_pb s1) (sw_pb s') i x' /\ row_set (sw_pbf s1) (sw_pbf s') i f else sw_pb s' = sw_pb s1 /\ sw_pbf s' = sw_pbf s1) /\
         (if fltb f pf && fltb f (sw_fxb s1) then sw_xb s' = x' /\ sw_fxb s' = f else sw_xb s' = sw_xb s1 /\ sw_fxb s' = sw_fxb s1))).
Proof.
  intros F E p w pc lo hi s flag i wd s' flag' wd' C L1 L2 Ex. unfold clpso_particle in Ex. unfold nthP at 1 in Ex. destruct (nth_error flag i) as [fl|] eqn:Nf; [|discriminate]. cbn [bind] in Ex.
  rewrite exec_bind in Ex. match type of Ex with context [exec E ?q wd] => destruct (exec E q wd) as [[[s1 flag1]|e] w1] eqn:Q end; [|discriminate]. cbv beta iota zeta in Ex.
  exists fl, s1, w1. split; [reflexivity|].
  set (T := fun (r : swarm * list nat) l' => snd r = flag1 /\ exists pci pbi ex vi xi u v' x', nth_error pc i = Some pci /\ nth_error (sw_pb s1) i = Some pbi /\ exemplar F pci (sw_pb s1) (sw_pbf s1) pbi ex /\
      nth_error (sw_v s1) i = Some vi /\ nth_error (sw_pop s1) i = Some xi /\
      (length vi = c_dim C -> length xi = c_dim C -> length pbi = c_dim C -> cl_velocity_eq F p (c_dim C) vi xi ex w u) /\ v' = ps_rep (cl_pso p) u lo hi /\ row_set (sw_v s1) (sw_v (fst r)) i v' /\
      x' = vadd F xi v' /\ row_set (sw_pop s1) (sw_pop (fst r)) i x' /\
      ((is_feasible C x' = Some false /\ l' = log E w1 /\ sw_fit (fst r) = sw_fit s1 /\ sw_pb (fst r) = sw_pb s1 /\ sw_pbf (fst r) = sw_pbf s1 /\ sw_xb (fst r) = sw_xb s1 /\ sw_fxb (fst r) = sw_fxb s1) \/
       (is_feasible C x' = Some true /\ exists f pf, evaluated x' f (log E w1) l' /\ row_set (sw_fit s1) (sw_fit (fst r)) i f /\ nth_error (sw_pbf s1) i = Some pf /\
         (if fltb f pf then row_set (sw_pb s1) (sw_pb (fst r)) i x' /\ row_set (sw_pbf s1) (sw_pbf (fst r)) i f else sw_pb (fst r) = sw_pb s1 /\ sw_pbf (fst r) = sw_pbf s1) /\
         (if fltb f pf && fltb f (sw_fxb s1) then sw_xb (fst r) = x' /\ sw_fxb (fst r) = f else sw_xb (fst r) = sw_xb s1 /\ sw_fxb (fst r) = sw_fxb s1)))).
  apply (tr_sound _ E _ T _ _ _) in Ex.
  - destruct Ex as [Hfl Ex]. cbn [fst snd] in Hfl, Ex. split; [|exact Ex]. clear Ex. subst flag1. destruct (cl_m p <=? fl).
    + rewrite exec_bind in Q. destruct (exec E (pso_particle _ _ _ _ _ _ _ _) wd) as [[s2|e] w2] eqn:Q2; [|discriminate]. unfold setP in Q. destruct (i <? length flag) eqn:Qi; [|discriminate]. cbn [bind exec] in Q. injection Q as <- <- <-.
      split; auto. apply Nat.ltb_lt in Qi. apply row_set_upd; auto.
    + cbn [exec] in Q. injection Q as <- <- <-. auto.
  - clear Q. fold (log E w1). apply wp_bind. apply w_nthP_tr. intros pci Hpc. apply wp_bind. apply w_exemplar. intros pbi ex Hpb Hex. apply wp_bind. apply w_nthP_tr. intros vi Hvi. apply wp_bind. apply w_nthP_tr. intros xi Hxi.
    apply wp_bind. unfold update_velocity_cl. apply wp_bind. apply w_random_vec_u. intros r Lr Ur. apply w_done. set (u := vadd F _ _).
    assert (Hu : length vi = c_dim C -> length xi = c_dim C -> length pbi = c_dim C -> cl_velocity_eq F p (c_dim C) vi xi ex w u).
    { intros A1 A2 A3. destruct Hex as [Hex _]. rewrite A3 in Hex. subst u. split; [dl|]. intros j Hj. exists (nth j r NaN). split; [apply nth_in_unit; auto; lia|]. nths (c_dim C). reflexivity. }
    clearbody u. set (v' := ps_rep (cl_pso p) u lo hi). apply wp_bind. apply w_setP_tr. intros Hv. cbv zeta. set (x' := vadd F xi v'). apply wp_bind. apply w_setP_tr. intros Hp. apply wp_bind.
    unfold feasible. fold C. destruct (is_feasible C x') as [[|]|] eqn:Qf; [| |exact I]; apply w_done.
    + apply wp_bind. apply w_eval_tr. intros f l' He. apply wp_bind. apply w_setP_tr. intros Hfit. apply wp_bind. apply w_nthP_tr. intros pf Hpf. destruct (fltb f pf) eqn:Qlt.
      * apply wp_bind. apply w_setP_tr. intros Hb. apply wp_bind. apply w_setP_tr. intros Hbf. apply w_done. split; [reflexivity|]. exists pci, pbi, ex, vi, xi, u, v', x'. cbn [fst sw_v sw_pop sw_fit sw_pb sw_pbf sw_xb sw_fxb].
        repeat (split; [solve [auto]|]). right. split; auto. exists f, pf. rewrite Qlt. cbn [andb]. repeat (split; [solve [auto]|]). destruct (fltb f (sw_fxb s1)); auto.
      * apply w_done. split; [reflexivity|]. exists pci, pbi, ex, vi, xi, u, v', x'. cbn [fst sw_v sw_pop sw_fit sw_pb sw_pbf sw_xb sw_fxb].
        repeat (split; [solve [auto]|]). right. split; auto. exists f, pf. rewrite Qlt. cbn [andb]. repeat (split; [solve [auto]|]). auto.
    + apply w_done. split; [reflexivity|]. exists pci, pbi, ex, vi, xi, u, v', x'. cbn [fst sw_v sw_pop sw_fit sw_pb sw_pbf sw_xb sw_fxb]. repeat (split; [solve [auto]|]). left. auto 8.
Qed.
Theorem C138_iteration : forall F E p pop fit xb fxb t wd pop' fit' xb' fxb' t' wd', let C := e_cfg E in
  exec E (clpso_iter F C p pop fit xb fxb t) wd = (Ret (pop', fit', xb', fxb', t'), wd') ->
  let w := fdiv F (fmul F (fmul F (cl_w0 p) (fsub F (cl_w0 p) (cl_w1 p))) (fnat F (t_iters (w_ts wd) + 1))) (iter_limit F C) in let ps := ct_pso t in let ps' := ct_pso t' in
  exists s' w0, log E w0 = log E wd /\ in_turn E (clpso_particle F C p w (ct_pc t) (pt_min ps) (pt_max ps)) (seq 0 (length pop)) (Swarm pop fit xb fxb (pt_pb ps) (pt_pbf ps) (pt_v ps), ct_flag t) w0 (s', ct_flag t') wd' /\
    pop' = sw_pop s' /\ fit' = sw_fit s' /\ xb' = sw_xb s' /\ fxb' = sw_fxb s' /\ pt_pb ps' = sw_pb s' /\ pt_pbf ps' = sw_pbf s' /\ pt_v ps' = sw_v s' /\
    ct_pc t' = ct_pc t /\ pt_min ps' = pt_min ps /\ pt_max ps' = pt_max ps.
Proof.
  intros F E p pop fit xb fxb t wd pop' fit' xb' fxb' t' wd' C Ex w ps ps'. unfold clpso_iter in Ex. rewrite exec_view in Ex. cbn [v_iters] in Ex. cbv zeta in Ex. unfold cl_w in Ex. fold (iter_limit F C) in Ex.
  replace (S (t_iters (w_ts wd))) with (t_iters (w_ts wd) + 1) in Ex by lia. fold w ps in Ex. rewrite exec_bind in Ex. unfold for_range in Ex.
  destruct (exec E (foldM _ _ _) wd) as [[[s flag]|e] w1] eqn:Q; [|discriminate]. apply exec_in_turn in Q. cbn [exec] in Ex. injection Ex as <- <- <- <- <- <-. subst ps'. exists s, wd. repeat (split; [solve [auto]|]). auto.
Qed.
(** 0.05 + 0.45 (exp(10 (i - 1) / (n - 1)) - 1) / (exp(10) - 1), no flag raised; a single particle is a division by zero *)
Theorem C138_init : forall F E p wd r wd', let C := e_cfg E in let n := ps_n (cl_pso p) in
  exec E (clpso_init F C p) wd = (r, wd') ->
  exists o, exec E (pso_init C (cl_pso p)) wd = (o, wd') /\ match o with
  | Raise e => r = Raise e
  | Ret (pop, fit, t) => if n =? 1 then r = Raise EZeroDiv else exists pc, r = Ret (pop, fit, CLState t (repeat 0 n) pc) /\
      comps n pc (fun i a => a = fadd F (flit F 5 100) (fdiv F (fmul F (flit F 45 100)
        (fsub F (fexp F (fdiv F (fz F (10 * (Z.of_nat i - 1))) (fz F (Z.of_nat n - 1)))) (flit F 1 1))) (fsub F (fexp F (flit F 10 1)) (flit F 1 1))))
  end.
Proof.
  intros F E p wd r wd' C n Ex. unfold clpso_init in Ex. rewrite exec_bind in Ex. destruct (exec E (pso_init C (cl_pso p)) wd) as [[[[pop fit] t]|e] w1] eqn:Q.
  - cbv zeta in Ex. fold n in Ex. destruct (n =? 1) eqn:Qn; cbn [exec] in Ex; injection Ex as <- <-; eexists; (split; [reflexivity|]); cbv beta iota; rewrite ?Qn; auto.
    eexists. split; [reflexivity|]. split; [rewrite map_length, seq_length; auto|]. intros i Hi. rewrite (nth_indep _ NaN (cl_pc F n 0)) by (rewrite map_length, seq_length; lia). rewrite map_nth. rewrite seq_nth by lia. reflexivity.
  - injection Ex as <- <-. eexists. split; [reflexivity|]. reflexivity.
Qed.
(** ** Concrete cases *)
Module ExPSO2.
  Definition C := ExPSO.C. Definition E := ExPSO.E. Definition p := ExPSO.p. Definition E2 := ExPSO.E2.
  Definition pop : list vec := [[q 1 4; q 1 2]; [q 3 4; q 1 4]].
  Definition fit : vec := [q 2 1; q 3 1].
  Definition vs : list vec := [[q 1 8; q (-1) 8]; [q 0 1; q 1 8]].
  Definition t : pso_state := PState pop fit (ps_w p) (ps_vmin p) (ps_vmax p) vs.
  Definition w0 := world_init C.
  Definition s0 := Swarm pop fit [q 1 4; q 1 2] (q 2 1) pop fit vs.
  Definition sv := map scl. Definition sm := map sv.
  Definition show (o : outcome (list vec * list num * vec * num * pso_state) * world) :=
    match fst o with Ret (a, b, c, d, u) => Some (sm a, sv b, sv c, scl d, (sm (pt_pb u), sv (pt_pbf u), sm (pt_v u), sv (pt_min u), sv (pt_max u))) | Raise _ => None end.
  Example hyps : cfg_ok C /\ cfg_ok (e_cfg E2) /\ length (pt_pbf t) = length (pt_pb t) /\ length fit = length pop /\ length (pt_pb t) = length pop /\
    Forall (fun x => length x = c_dim C) pop.
  Proof. split; [apply ExPSO.hyps|]. split; [apply ExPSO.hyps|]. repeat (split; [reflexivity|]). repeat constructor. Qed.
  Example particles_shown : show (exec E (pso_iter fx (update_velocity fx C p) pop fit [q 1 4; q 1 2] (q 2 1) t) w0) =
    Some ([[20480; 28672]; [40448; 22016]], [77824; 84480], [20480; 28672], 77824, ([[20480; 28672]; [40448;
    22016]], [77824; 84480], [[4096; (-4096)]; [(-8704); 5632]], [(-16384); (-16384)], [16384; 16384]))%Z.
  Proof. vm_compute. reflexivity. Qed.
  Example velocity_shown : match fst (exec E (update_velocity_mcu fx C p [q 1 8; q (-1) 8] [q 1 4; q 1 2] [q 3 4; q 1 4] [q 1 2; q 0 1] [q 1 2; q 1 2] [q (-1) 4; q (-1) 4] [q 1 4; q 1 4]) w0) with
    Ret v => Some (sv v) | Raise _ => None end =
    Some [16128; (-13312)]%Z.
  Proof. vm_compute. reflexivity. Qed.
  Example center_shown : show (exec E (cpso_iter fx C (update_velocity fx C p) pop fit [q 1 4; q 1 2] (q 2 1) t) w0) =
    Some ([[20480; 28672]; [40448; 22016]], [77824; 84480], [20480; 28672], 77824, ([[20480; 28672]; [40448;
    22016]], [77824; 84480], [[4096; (-4096)]; [(-8704); 5632]], [(-16384); (-16384)], [16384; 16384]))%Z.
  Proof. vm_compute. reflexivity. Qed.
  Example mutated_shown : show (exec E (mutated_iter fx C 2 (pso_iter fx (update_velocity fx C p)) pop fit [q 1 4; q 1 2] (q 2 1) t) w0) =
    Some ([[20480; 28672]; [40448; 22016]], [77824; 84480], [0; 36863], 73727, ([[20480; 28672]; [40448;
    22016]], [77824; 84480], [[4096; (-4096)]; [(-8704); 5632]], [(-16384); (-16384)], [16384; 16384]))%Z.
  Proof. vm_compute. reflexivity. Qed.
  Example opposition_shown : match fst (exec E2 (opposite_learning fx (e_cfg E2) pop fit) w0) with Ret n => Some (map (fun z => (sv (fst z), scl (snd z))) n) | Raise _ => None end =
    Some [([49152; 32768], 114688); ([16384; 49152], 114688)]%Z.
  Proof. vm_compute. reflexivity. Qed.
  Example ovcpso_opposes : show (exec E2 (ovcpso_iter fx (e_cfg E2) (OVPar p (q 1 1) (q 1 4) (q 1 2) (q 1 8)) pop fit [q 1 4; q 1 2] (q 2 1) t) w0) =
    Some ([[49152; 32768]; [16384; 49152]], [114688; 114688], [49152; 32768], 114688, ([[49152; 32768];
    [16384; 49152]], [114688; 114688], [[8192; (-8192)]; [0; 8192]], [(-16384); (-16384)], [16384; 16384]))%Z.
  Proof. vm_compute. reflexivity. Qed.
  Example ovcpso_moves : show (exec E2 (ovcpso_iter fx (e_cfg E2) (OVPar p (q 0 1) (q 1 4) (q 1 2) (q 1 8)) pop fit [q 1 4; q 1 2] (q 2 1) t) w0) =
    Some ([[20252; 28899]; [45539; 28074]], [78051; 101688], [20252; 28899], 78051, ([[20252; 28899]; [45539;
    28074]], [78051; 101688], [[3868; (-3869)]; [(-3613); 11690]], [2531; 3509], [5692; 3612]))%Z.
  Proof. vm_compute. reflexivity. Qed.
  Definition init_shown (o : outcome (list vec * list num * pso_state) * world) := match fst o with Ret (a, b, u) => Some (sm a, sv b, sm (pt_pb u), sv (pt_pbf u), sv (pt_min u), sv (pt_max u)) | Raise _ => None end.
  Example ovcpso_starts : init_shown (exec E2 (ovcpso_init fx (e_cfg E2) (OVPar p (q 0 1) (q 1 4) (q 1 2) (q 1 8))) w0) =
    Some ([[24576; 24576]; [8192; 40960]], [73728; 90112], [[24576; 24576]; [24576; 24576]], [73728; 73728],
    [8192; 8192], [(-8192); (-8192)])%Z.
  Proof. vm_compute. reflexivity. Qed.
  Definition cl := CLPar p 2 (q 1 1) (q 1 4) (q 3 2).
  Definition cl_show (o : outcome (swarm * list nat) * world) := match fst o with Ret (s, fl) => Some (sm (sw_pop s), sv (sw_fit s), sv (sw_xb s), scl (sw_fxb s), sv (sw_pbf s), sm (sw_v s), map Z.of_nat fl) | Raise _ => None end.
  (** the first particle has a raised flag: it makes an ordinary move first *)
  Example cl_flagged : cl_show (exec E2 (clpso_particle fx (e_cfg E2) cl (q 1 2) [q 1 2; q 1 2] [q (-1) 4; q (-1) 4] [q 1 4; q 1 4] (s0, [2; 0]) 0) w0) =
    Some ([[26112; 20480]; [49152; 16384]], [67072; 196608], [26112; 20480], 67072, [67072; 196608], [[1536;
    (-4096)]; [0; 8192]], [0; 0])%Z.
  Proof. vm_compute. reflexivity. Qed.
  Example cl_plain : cl_show (exec E2 (clpso_particle fx (e_cfg E2) cl (q 1 2) [q 1 2; q 1 2] [q (-1) 4; q (-1) 4] [q 1 4; q 1 4] (s0, [2; 0]) 1) w0) =
    Some ([[16384; 32768]; [55296; 25600]], [131072; 106496], [55296; 25600], 106496, [131072; 106496],
    [[8192; (-8192)]; [6144; 9216]], [2; 0])%Z.
  Proof. vm_compute. reflexivity. Qed.
  (** a velocity that leaves the box: not evaluated *)
  Example cl_outside : cl_show (exec E2 (clpso_particle fx (e_cfg E2) cl (q 8 1) [q 1 2; q 1 2] [q (-4) 1; q (-4) 1] [q 4 1; q 4 1] (s0, [1; 0]) 0) w0) =
    Some ([[81920; (-32768)]; [49152; 16384]], [131072; 196608], [16384; 32768], 131072, [131072; 196608],
    [[65536; (-65536)]; [0; 8192]], [1; 0])%Z.
  Proof. vm_compute. reflexivity. Qed.
  Example cl_iterates : match fst (exec E2 (clpso_iter fx (e_cfg E2) cl pop fit [q 1 4; q 1 2] (q 2 1) (CLState t [2; 0] [q 1 2; q 1 4])) w0) with
    Ret (a, b, c, d, u) => Some (sm a, sv b, sv c, scl d, map Z.of_nat (ct_flag u), sv (ct_pc u)) | Raise _ => None end =
    Some ([[39082; 23893]; [49152; 24746]], [86869; 98645], [24576; 24576], 73728, [0; 0], [32768; 16384])%Z.
  Proof. vm_compute. reflexivity. Qed.
  Example cl_single : fst (exec E2 (clpso_init fx (e_cfg E2) (CLPar (PSOPar 1 (q 2 1) (q 1 1) [q 1 2; q 1 2] [q (-1) 4; q (-1) 4] [q 1 4; q 1 4] (reflect_v fx)) 2 (q 1 1) (q 1 4) (q 3 2))) w0) = Raise EZeroDiv.
  Proof. vm_compute. reflexivity. Qed.
End ExPSO2.

Print Assumptions C136_particle. Print Assumptions C136_iteration. Print Assumptions C136_velocity. Print Assumptions C136_center. Print Assumptions C136_mutated.
Print Assumptions C137_opposition. Print Assumptions C137_iteration. Print Assumptions C137_init. Print Assumptions C138_particle. Print Assumptions C138_iteration. Print Assumptions C138_init.
