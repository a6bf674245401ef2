(** Final theorems about the particle swarm family (C38; the variants are C61-C63). *)
From Coq Require Import ZArith Lia Bool List Sorted.
From Verif Require Import Num Task TaskSpec TaskProofs TaskProofs2 Prog Wp GetBest Run RunSpec RunProofs RunProofs2
  AlgoLib Fops AlgTac AlgPSO AlgPSOProofs B64 B64Int ExLib.
Import ListNotations.

(** ** C38: WeightedVelocityClampingParticleSwarmAlgorithm and ParticleSwarmOptimization *)

(** the parameters: at least one particle, per-component arrays, a velocity repair that keeps lengths *)
Definition pso_par_ok (C : cfg) (p : pso_par) : Prop :=
  0 < ps_n p /\ length (ps_w p) = c_dim C /\ length (ps_vmin p) = c_dim C /\ length (ps_vmax p) = c_dim C /\
  (forall x lo hi d, length x = d -> length lo = d -> length hi = d -> length (ps_rep p x lo hi) = d).
Lemma pso_par_ok_iff : forall C p, pso_par_ok C p -> par_ok C p.
Proof. intros C p (H1 & H2 & H3 & H4 & H5). split; auto. Qed.

Theorem C38_wvcpso : forall F E p, let C := e_cfg E in
  cfg_ok C -> no_nan (e_prob E) -> repair_ok E -> pso_par_ok C p ->
  best_run E (wvcpso F C p) /\ sizes_ok (fun n => n = ps_n p) E (wvcpso F C p).
Proof.
  intros F E p C HC Hn Hr Hp. apply pso_par_ok_iff in Hp.
  apply (pso_like_best (at_eval C (inside C)) (inside C) E p (pso_iter F (update_velocity F C p))); auto.
  - apply eval_rows; auto.
  - apply pso_iter_ok; auto. apply eval_rows; auto. apply update_velocity_ok. apply Hp.
Qed.
Theorem C38_pso : forall F E n c1 c2, let C := e_cfg E in
  cfg_ok C -> no_nan (e_prob E) -> repair_ok E -> 0 < n ->
  best_run E (pso F C n c1 c2 (reflect_v F)) /\ sizes_ok (fun k => k = n) E (pso F C n c1 c2 (reflect_v F)).
Proof.
  intros F E n c1 c2 C HC Hn Hr Hp. apply (C38_wvcpso F E (pso_of F C n c1 c2 (reflect_v F))); auto.
  split; auto. simpl. rewrite !repeat_length. do 3 (split; [auto|]). apply reflect_len.
Qed.

(** w v + c1 r1 (pbest - x) + c2 r2 (gbest - x) with fresh r1, r2 in [0,1] for every component *)
Definition velocity_eq (F : fops) (p : pso_par) (d : nat) (v x pb gb w u : vec) : Prop :=
  length u = d /\ forall j, j < d -> exists r1 r2, unit_num r1 /\ unit_num r2 /\
    nth j u NaN = fadd F (fadd F (fmul F (nth j w NaN) (nth j v NaN))
                    (fmul F (fmul F (ps_c1 p) r1) (fsub F (nth j pb NaN) (nth j x NaN))))
                    (fmul F (fmul F (ps_c2 p) r2) (fsub F (nth j gb NaN) (nth j x NaN))).

Lemma w_velocity_eq : forall K F C p v x pb gb w lo hi (Q : vec -> elog -> Prop) l,
  length v = c_dim C -> length x = c_dim C -> length pb = c_dim C -> length gb = c_dim C -> length w = c_dim C ->
  (forall u, velocity_eq F p (c_dim C) v x pb gb w u -> Q (ps_rep p u lo hi) l) ->
  wp K (update_velocity F C p v x pb gb w lo hi) Q l.
Proof.
  intros K F C p v x pb gb w lo hi Q l H1 H2 H3 H4 H5 HQ. unfold update_velocity.
  apply wp_bind. apply w_random_vec_r. intros r1 L1 R1. apply wp_bind. apply w_random_vec_r. intros r2 L2 R2. apply w_done.
  apply HQ. split; [dl|]. intros j Hj.
  exists (nth j r1 NaN), (nth j r2 NaN). split; [apply nth_unit; auto; lia|]. split; [apply nth_unit; auto; lia|]. nths (c_dim C). reflexivity.
Qed.

Theorem C38_velocity : forall F E p v x pb gb w lo hi wd r wd', let C := e_cfg E in
  length v = c_dim C -> length x = c_dim C -> length pb = c_dim C -> length gb = c_dim C -> length w = c_dim C ->
  exec E (update_velocity F C p v x pb gb w lo hi) wd = (r, wd') ->
  (exists u, r = Ret (ps_rep p u lo hi) /\ velocity_eq F p (c_dim C) v x pb gb w u) /\ w_ts wd' = w_ts wd /\ w_h wd' = w_h wd.
Proof.
  intros F E p v x pb gb w lo hi wd r wd' C H1 H2 H3 H4 H5 Ex.
  destruct (pure_sound _ E (update_velocity F C p v x pb gb w lo hi) (fun a => exists u, a = ps_rep p u lo hi /\ velocity_eq F p (c_dim C) v x pb gb w u) wd r wd') as [(a & -> & u & -> & H) G]; eauto.
  intros l. apply w_velocity_eq; eauto.
Qed.

(** one particle moves: only row i changes; the new position is the repaired sum of position and velocity,
    it is evaluated, and it replaces the personal best and the global best only when strictly better *)
Definition row_moved {A} (xs ys : list A) (i : nat) (y : A) : Prop :=
  length ys = length xs /\ nth_error ys i = Some y /\ forall j, j <> i -> nth_error ys j = nth_error xs j.
Lemma row_moved_upd : forall A (xs : list A) i y, i < length xs -> row_moved xs (upd xs i y) i y.
Proof.
  intros A xs i y H. split; [apply upd_length|]. split; [apply nth_upd_same; auto|].
  intros j Hj. apply nth_upd_other. auto.
Qed.
Lemma row_same : forall A (xs : list A) i y, nth_error xs i = Some y -> row_moved xs xs i y.
Proof. intros A xs i y H. split; auto. Qed.

Theorem C38_particle : forall F E p w lo hi s i n wd s' wd' xi vi pbi pfi, let C := e_cfg E in
  cfg_ok C -> no_nan (e_prob E) -> repair_ok E -> pso_par_ok C p ->
  length w = c_dim C -> length lo = c_dim C -> length hi = c_dim C -> length (sw_xb s) = c_dim C ->
  length (sw_pop s) = n -> length (sw_fit s) = n -> length (sw_pb s) = n -> length (sw_pbf s) = n -> length (sw_v s) = n ->
  nth_error (sw_pop s) i = Some xi -> nth_error (sw_v s) i = Some vi -> nth_error (sw_pb s) i = Some pbi ->
  nth_error (sw_pbf s) i = Some pfi -> length xi = c_dim C -> length vi = c_dim C -> length pbi = c_dim C ->
  exec E (pso_particle F (update_velocity F C p) false w lo hi s i) wd = (Ret s', wd') ->
  exists u x' f q, velocity_eq F p (c_dim C) vi xi pbi (sw_xb s) w u /\
    let v' := ps_rep p u lo hi in
    x' = e_rep E q (map2 (fadd F) xi v') /\
    ((f = PInf /\ log_of (c_opt C) (w_h wd') = log_of (c_opt C) (w_h wd)) \/
     log_of (c_opt C) (w_h wd') = (x', f) :: log_of (c_opt C) (w_h wd)) /\
    row_moved (sw_pop s) (sw_pop s') i x' /\ row_moved (sw_fit s) (sw_fit s') i f /\ row_moved (sw_v s) (sw_v s') i v' /\
    (fltb f pfi = true -> row_moved (sw_pb s) (sw_pb s') i x' /\ row_moved (sw_pbf s) (sw_pbf s') i f) /\
    (fltb f pfi = false -> sw_pb s' = sw_pb s /\ sw_pbf s' = sw_pbf s) /\
    (fltb f (sw_fxb s) = true -> sw_xb s' = x' /\ sw_fxb s' = f) /\
    (fltb f (sw_fxb s) = false -> sw_xb s' = sw_xb s /\ sw_fxb s' = sw_fxb s).
Proof.
  intros F E p w lo hi s i n wd s' wd' xi vi pbi pfi C HC Hn Hr Hp Lw Llo Lhi Lxb L1 L2 L3 L4 L5 E1 E2 E3 E4 D1 D2 D3 Ex.
  set (K := WCtx (fun _ => True) (fun x y => exists q, y = e_rep E q x) (fun v => v <> NaN) (fun _ => True)).
  assert (Hi : i < n) by (rewrite <- L1; apply nth_error_Some; congruence).
  assert (HE : env_ok K E).
  { split; [intros q x; exists q; auto|split; [|reflexivity]]. intros h x v Hv Q. apply (proj1 (sgn_nan _ _)) in Q. eapply Hn; eauto. }
  match type of Ex with exec _ ?pr _ = _ => set (prg := pr) in * end.
  set (l0 := log_of (c_opt (e_cfg E)) (w_h wd)).
  match goal with |- ?G => set (Goal := G) end.
  assert (W : wp K prg (fun s' l' => exists u x' f q, velocity_eq F p (c_dim C) vi xi pbi (sw_xb s) w u /\
    let v' := ps_rep p u lo hi in
    x' = e_rep E q (map2 (fadd F) xi v') /\
    ((f = PInf /\ l' = l0) \/ l' = (x', f) :: l0) /\
    row_moved (sw_pop s) (sw_pop s') i x' /\ row_moved (sw_fit s) (sw_fit s') i f /\ row_moved (sw_v s) (sw_v s') i v' /\
    (fltb f pfi = true -> row_moved (sw_pb s) (sw_pb s') i x' /\ row_moved (sw_pbf s) (sw_pbf s') i f) /\
    (fltb f pfi = false -> sw_pb s' = sw_pb s /\ sw_pbf s' = sw_pbf s) /\
    (fltb f (sw_fxb s) = true -> sw_xb s' = x' /\ sw_fxb s' = f) /\
    (fltb f (sw_fxb s) = false -> sw_xb s' = sw_xb s /\ sw_fxb s' = sw_fxb s)) l0).
  { unfold prg, pso_particle. 
    assert (N1 : nthP (sw_pop s) i = Done xi) by (unfold nthP; rewrite E1; auto).
    assert (N2 : nthP (sw_v s) i = Done vi) by (unfold nthP; rewrite E2; auto).
    assert (N3 : nthP (sw_pb s) i = Done pbi) by (unfold nthP; rewrite E3; auto).
    rewrite N1, N2, N3. apply wp_bind, w_done. apply wp_bind, w_done. apply wp_bind, w_done. apply wp_bind. apply w_velocity_eq; auto.
    intros u Hu. apply wp_bind. apply w_setP; [lia|]. apply wp_bind. hnf. intros x' [q Hx].
    apply wp_bind. apply w_setP; [lia|]. apply wp_bind.
    assert (G : forall f l1, (f = PInf /\ l1 = l0) \/ l1 = (x', f) :: l0 ->
      wp K (let* fit := setP (sw_fit s) i f in let* pf := nthP (sw_pbf s) i in
        let better := fltb f pf in
        let* pb := (if better then setP (sw_pb s) i x' else Done (sw_pb s)) in
        let* pbf := (if better then setP (sw_pbf s) i f else Done (sw_pbf s)) in
        let take := fltb f (sw_fxb s) && (better || negb false) in
        Done (Swarm (upd (sw_pop s) i x') fit (if take then x' else sw_xb s) (if take then f else sw_fxb s) pb pbf (upd (sw_v s) i (ps_rep p u lo hi))))
       (fun s' l' => exists u x' f q, velocity_eq F p (c_dim C) vi xi pbi (sw_xb s) w u /\
    let v' := ps_rep p u lo hi in
    x' = e_rep E q (map2 (fadd F) xi v') /\
    ((f = PInf /\ l' = l0) \/ l' = (x', f) :: l0) /\
    row_moved (sw_pop s) (sw_pop s') i x' /\ row_moved (sw_fit s) (sw_fit s') i f /\ row_moved (sw_v s) (sw_v s') i v' /\
    (fltb f pfi = true -> row_moved (sw_pb s) (sw_pb s') i x' /\ row_moved (sw_pbf s) (sw_pbf s') i f) /\
    (fltb f pfi = false -> sw_pb s' = sw_pb s /\ sw_pbf s' = sw_pbf s) /\
    (fltb f (sw_fxb s) = true -> sw_xb s' = x' /\ sw_fxb s' = f) /\
    (fltb f (sw_fxb s) = false -> sw_xb s' = sw_xb s /\ sw_fxb s' = sw_fxb s)) l1).
    { intros f l1 Hl. apply wp_bind. apply w_setP; [lia|]. unfold nthP. rewrite E4. cbn [bind]. cbv zeta.
      assert (T : forall b : bool, fltb f (sw_fxb s) && (b || negb false) = fltb f (sw_fxb s)) by (intros b; simpl; rewrite orb_true_r, andb_true_r; auto).
      rewrite T.
      destruct (fltb f pfi) eqn:Eb; [ws|ws]; exists u, x', f, q; (split; [auto|]); cbv zeta; (split; [auto|]); (split; [auto|]);
        cbn [sw_pop sw_fit sw_v sw_pb sw_pbf sw_xb sw_fxb];
        (split; [apply row_moved_upd; lia|]); (split; [apply row_moved_upd; lia|]); (split; [apply row_moved_upd; lia|]);
        (split; [intros Q; first [congruence|split; apply row_moved_upd; lia]|]); (split; [intros Q; first [congruence|auto]|]);
        (split; intros Q; rewrite Q; auto). }
    hnf. split; [exact I|]. split.
    - intros v Hv. apply G. auto.
    - apply G. auto. }
  destruct (wp_sound _ K E prg _ wd (Ret s') wd' HE W Ex) as [_ G]. exact G.
Qed.

(** each personal best is an evaluated pair and never gets worse: one iteration from any state in which
    the personal bests were evaluated and nothing evaluated so far is better than the global best *)
Theorem C38_personal_best : forall F E p pop fit xb fxb t wd pop' fit' xb' fxb' t' wd', let C := e_cfg E in
  let log w := log_of (c_opt C) (w_h w) in
  let evaluated w x f := f = PInf \/ In (x, f) (log w) in
  cfg_ok C -> no_nan (e_prob E) -> repair_ok E -> pso_par_ok C p ->
  length pop = ps_n p -> length fit = ps_n p -> length (pt_pb t) = ps_n p -> length (pt_pbf t) = ps_n p -> length (pt_v t) = ps_n p ->
  Forall (fun x => length x = c_dim C) pop -> Forall (fun x => length x = c_dim C) (pt_pb t) ->
  Forall (fun x => length x = c_dim C) (pt_v t) ->
  length (pt_w t) = c_dim C -> length (pt_min t) = c_dim C -> length (pt_max t) = c_dim C -> length xb = c_dim C ->
  Forall2 (evaluated wd) (pt_pb t) (pt_pbf t) -> evaluated wd xb fxb -> fxb <> NaN ->
  (forall x v, In (x, v) (log wd) -> fleb fxb v = true) -> Forall (fun f => fleb fxb f = true) (pt_pbf t) ->
  exec E (pso_iter F (update_velocity F C p) pop fit xb fxb t) wd = (Ret (pop', fit', xb', fxb', t'), wd') ->
  Forall2 (evaluated wd') (pt_pb t') (pt_pbf t') /\
  Forall2 (fun new old => fleb new old = true) (pt_pbf t') (pt_pbf t) /\
  Forall (fun f => fleb fxb' f = true) (pt_pbf t') /\
  evaluated wd' xb' fxb' /\ (forall x v, In (x, v) (log wd') -> fleb fxb' v = true) /\ fleb fxb' fxb = true.
Proof.
  intros F E p pop fit xb fxb t wd pop' fit' xb' fxb' t' wd' C log evaluated HC Hn Hr Hp L1 L2 L3 L4 L5 D1 D2 D3 Lw Lmn Lmx Lxb Hpb Hxb Hfx Hlb Hle Ex.
  apply pso_par_ok_iff in Hp.
  assert (B := pso_iter_ok C (at_len C) (fun _ => True) (fun _ => False) F (update_velocity F C p) (ps_n p) HC (length_rows C HC)
    (fun _ _ => I) (update_velocity_ok F C p (proj1 (proj2 Hp)))).
  assert (HF : Forall2 (at_len C (log wd)) pop fit).
  { clear - D1 L1 L2. assert (L : length pop = length fit) by congruence. clear L1 L2. revert fit L.
    induction D1; intros [|f fit] L; simpl in L; try discriminate; constructor; auto. }
  assert (Hnn : Forall (fun f => f <> NaN) (pt_pbf t)).
  { eapply Forall_impl; [|exact Hle]. intros a Ha. exact (fleb_nan_r _ _ Ha). }
  assert (HI : PInv C (at_len C) (ps_n p) pop fit xb fxb t (log wd)).
  { split; [apply Hp|]. split; [|auto]. split; [|split; [|split]]; simpl.
    - unfold shape; simpl. do 8 (split; [auto|]). auto.
    - split; auto.
    - split; auto.
    - apply no_worse_refl; auto. }
  destruct (wp_sound _ _ E _ _ wd _ wd' (env_ok_KB (fun _ => True) (fun _ => False) E Hn Hr) (B _ _ _ _ _ _ HI) Ex) as [(dd & Hdd & _) [G1 G2]].
  destruct G1 as (_ & (S & (G3 & G4 & G5) & (B1 & B2) & _) & _). simpl in *.
  split; auto. split; auto. split; auto. split; auto. split; auto.
  destruct Hxb as [->|Hin]; [apply fleb_PInf; auto|]. apply (G4 xb). unfold log in Hin. rewrite Hdd. unfold log_of.
  rewrite flat_map_app. apply in_or_app. right. exact Hin.
Qed.

(** ** C61: the mutated and center variants *)
Theorem C61_mpso : forall F E p k, let C := e_cfg E in
  cfg_ok C -> 0 < c_dim C -> no_nan (e_prob E) -> repair_ok E -> pso_par_ok C p ->
  best_run E (mpso F C p k) /\ sizes_ok (fun n => n = ps_n p) E (mpso F C p k).
Proof.
  intros F E p k C HC Hd Hn Hr Hp. apply pso_par_ok_iff in Hp. assert (HR := eval_rows C (inside C) HC (fun x H => H)).
  apply (pso_like_best (at_eval C (inside C)) (inside C) E p (mutated_iter F C k (pso_iter F (update_velocity F C p)))); auto.
  apply mutated_iter_ok; auto. apply pso_iter_ok; auto. apply update_velocity_ok. apply Hp.
Qed.

(** The centroid of the swarm is evaluated without repair.  The result is the best evaluated point for
    every arithmetic; that the evaluated points are inside the bounds needs an arithmetic in which the
    mean of n points inside the bounds is inside the bounds. *)
Definition right_length (C : cfg) (x : vec) : Prop := length x = c_dim C.
Definition mean_inside (F : fops) (C : cfg) (n : nat) : Prop :=
  forall pop, length pop = n -> Forall (inside C) pop -> inside C (centroid F (c_dim C) pop).

Section Center.
Variables (F : fops) (E : env) (p : pso_par).
Let C := e_cfg E.
Hypotheses (HC : cfg_ok C) (Hn : no_nan (e_prob E)) (Hr : repair_ok E) (Hp : pso_par_ok C p).
Variable uv : velocity.
Hypothesis Huv : uv_ok C uv.

Lemma center_base : base_ok C (at_eval C (right_length C)) (right_length C) (fun _ => False) (ps_n p) (cpso_iter F C uv).
Proof.
  apply cpso_iter_ok; auto.
  - apply eval_rows; auto. intros x Hx. apply inside_len; auto.
  - intros x Hx. apply inside_len; auto.
  - intros l pop fit _ HF. red. apply centroid_len. clear - HF. induction HF; constructor; auto. apply H.
Qed.
Lemma center_base_in : mean_inside F C (ps_n p) -> base_ok C (at_eval C (inside C)) (inside C) (fun _ => False) (ps_n p) (cpso_iter F C uv).
Proof.
  intros Hm. apply cpso_iter_ok; auto.
  - apply eval_rows; auto.
  - intros l pop fit L HF. apply Hm; auto. clear - HF. induction HF; constructor; auto. apply H.
Qed.
End Center.

Theorem C61_cpso : forall F E p, let C := e_cfg E in
  cfg_ok C -> no_nan (e_prob E) -> repair_ok E -> pso_par_ok C p ->
  best_run_p (right_length C) (fun _ => False) E (cpso F C p) /\ sizes_ok (fun n => n = ps_n p) E (cpso F C p) /\
  (mean_inside F C (ps_n p) -> best_run E (cpso F C p)).
Proof.
  intros F E p C HC Hn Hr Hp. assert (Hp' := pso_par_ok_iff _ _ Hp). assert (Hu := update_velocity_ok F C p (proj1 (proj2 Hp'))).
  assert (HL : forall x, inside C x -> right_length C x) by (intros x Hx; apply inside_len; auto).
  destruct (pso_like_best (at_eval C (right_length C)) (right_length C) E p (cpso_iter F C (update_velocity F C p))) as [G1 G2]; auto.
  - apply eval_rows; auto.
  - apply center_base; auto.
  - split; auto. split; auto. intros Hm.
    apply (pso_like_best (at_eval C (inside C)) (inside C) E p (cpso_iter F C (update_velocity F C p))); auto.
    + apply eval_rows; auto.
    + apply center_base_in; auto.
Qed.
Theorem C61_mcpso : forall F E p k, let C := e_cfg E in
  cfg_ok C -> 0 < c_dim C -> no_nan (e_prob E) -> repair_ok E -> pso_par_ok C p ->
  best_run_p (right_length C) (fun _ => False) E (mcpso F C p k) /\ sizes_ok (fun n => n = ps_n p) E (mcpso F C p k) /\
  (mean_inside F C (ps_n p) -> best_run E (mcpso F C p k)).
Proof.
  intros F E p k C HC Hd Hn Hr Hp. assert (Hp' := pso_par_ok_iff _ _ Hp). assert (Hu := update_velocity_ok F C p (proj1 (proj2 Hp'))).
  assert (HL : forall x, inside C x -> right_length C x) by (intros x Hx; apply inside_len; auto).
  destruct (pso_like_best (at_eval C (right_length C)) (right_length C) E p (mutated_iter F C k (cpso_iter F C (update_velocity F C p)))) as [G1 G2]; auto.
  - apply eval_rows; auto.
  - apply mutated_iter_ok; auto. apply eval_rows; auto. apply center_base; auto.
  - split; auto. split; auto. intros Hm.
    apply (pso_like_best (at_eval C (inside C)) (inside C) E p (mutated_iter F C k (cpso_iter F C (update_velocity F C p)))); auto.
    + apply eval_rows; auto.
    + apply mutated_iter_ok; auto. apply eval_rows; auto. apply center_base_in; auto.
Qed.
Theorem C61_mcupso : forall F E p k, let C := e_cfg E in
  cfg_ok C -> 0 < c_dim C -> no_nan (e_prob E) -> repair_ok E -> pso_par_ok C p ->
  best_run_p (right_length C) (fun _ => False) E (mcupso F C p k) /\ sizes_ok (fun n => n = ps_n p) E (mcupso F C p k) /\
  (mean_inside F C (ps_n p) -> best_run E (mcupso F C p k)).
Proof.
  intros F E p k C HC Hd Hn Hr Hp. assert (Hp' := pso_par_ok_iff _ _ Hp). assert (Hu := update_velocity_mcu_ok F C p (proj1 (proj2 Hp'))).
  assert (HL : forall x, inside C x -> right_length C x) by (intros x Hx; apply inside_len; auto).
  destruct (pso_like_best (at_eval C (right_length C)) (right_length C) E p (mutated_iter F C k (cpso_iter F C (update_velocity_mcu F C p)))) as [G1 G2]; auto.
  - apply eval_rows; auto.
  - apply mutated_iter_ok; auto. apply eval_rows; auto. apply center_base; auto.
  - split; auto. split; auto. intros Hm.
    apply (pso_like_best (at_eval C (inside C)) (inside C) E p (mutated_iter F C k (cpso_iter F C (update_velocity_mcu F C p)))); auto.
    + apply eval_rows; auto.
    + apply mutated_iter_ok; auto. apply eval_rows; auto. apply center_base_in; auto.
Qed.

(** ** C62: OppositionVelocityClampingParticleSwarmOptimization *)
(** the opposite l + u - x of a point is evaluated without repair *)
Definition opposite_inside (F : fops) (C : cfg) : Prop :=
  forall x, inside C x -> inside C (map2 (fsub F) (map2 (fadd F) (c_lower C) (c_upper C)) x).

Theorem C62_ovcpso : forall F E p, let C := e_cfg E in
  cfg_ok C -> no_nan (e_prob E) -> repair_ok E -> pso_par_ok C (ov_pso p) ->
  best_run_p (right_length C) (fun _ => False) E (ovcpso F C p) /\
  sizes_ok (fun n => n = ps_n (ov_pso p)) E (ovcpso F C p) /\
  (opposite_inside F C -> best_run E (ovcpso F C p)).
Proof.
  intros F E p C HC Hn Hr Hp. assert (Hp' := pso_par_ok_iff _ _ Hp).
  assert (HL : forall x, inside C x -> right_length C x) by (intros x Hx; apply inside_len; auto).
  assert (Best : forall P : vec -> Prop, (forall x, inside C x -> P x) -> opp_ok C P F ->
     best_run_p P (fun _ => False) E (ovcpso F C p) /\ sizes_ok (fun n => n = ps_n (ov_pso p)) E (ovcpso F C p)).
  { intros P HP HO. destruct (ovcpso_ok C P (fun _ => False) F p HC HP HO Hp') as [G1 G2]. split.
    - eapply (best_run_c P (fun _ => False) E (ovcpso F C p)); eauto.
      intros pop fit xb fxb par l (_ & (S & G & _) & _). split; auto. apply S.
    - eapply (sizes_c P (fun _ => False) _ E (ovcpso F C p)); eauto.
      intros pop fit xb fxb par l (_ & (S & _) & _). apply S. }
  destruct (Best (right_length C)) as [B1 B2]; auto.
  { intros x _ Hx. red. dl. }
  split; auto. split; auto. intros HO. apply (Best (inside C)); auto. intros x Hx _. apply HO; auto.
Qed.

(** ** C63: ComprehensiveLearningParticleSwarmOptimizer.  An exemplar index computed as
    int(random() * n) is out of range only if the product rounds up to n, which it does not in binary64. *)
Theorem C63_clpso : forall F E p, let C := e_cfg E in
  cfg_ok C -> no_nan (e_prob E) -> repair_ok E -> pso_par_ok C (cl_pso p) -> 1 < ps_n (cl_pso p) ->
  best_run_x (fun e => e = EIndex) E (clpso F C p) /\ sizes_ok (fun n => n = ps_n (cl_pso p)) E (clpso F C p) /\
  (idx_ok F (ps_n (cl_pso p)) -> best_run E (clpso F C p)).
Proof.
  intros F E p C HC Hn Hr Hp Hn1. assert (Hp' := pso_par_ok_iff _ _ Hp).
  assert (G : forall X : exn -> Prop, idx_ok F (ps_n (cl_pso p)) \/ X EIndex -> best_run_x X E (clpso F C p) /\ sizes_ok (fun n => n = ps_n (cl_pso p)) E (clpso F C p)).
  { intros X HX. destruct (clpso_ok C (inside C) X F p) as [G1 G2]; auto. split.
    - eapply (best_run_c (inside C) X E (clpso F C p)); eauto.
      intros pop fit xb fxb par l ((_ & (S & G & _) & _) & _). split; auto. apply S.
    - eapply (sizes_c (inside C) X _ E (clpso F C p)); eauto.
      intros pop fit xb fxb par l ((_ & (S & _) & _) & _). apply S. }
  destruct (G (fun e => e = EIndex)) as [G1 G2]; auto. split; auto. split; auto. intros HI. apply (G (fun _ => False)). auto.
Qed.
Theorem C63_clpso_64 : forall E p, let C := e_cfg E in
  cfg_ok C -> no_nan (e_prob E) -> repair_ok E -> pso_par_ok C (cl_pso p) -> 1 < ps_n (cl_pso p) -> (Z.of_nat (ps_n (cl_pso p)) <= 2 ^ 53)%Z ->
  best_run E (clpso b64ops C p).
Proof. intros E p C HC Hn Hr Hp Hn1 Hb. apply C63_clpso; auto. apply idx_ok_64; auto. lia. Qed.

(** ** In binary64 the unrepaired points do leave the bounds *)

(** three particles at the upper bound 0.1: (0.1 + 0.1 + 0.1) / 3 > 0.1 *)
Definition center_C := Cfg Minimization 1 [Fin 0] [b64_lit 1 10] (LFin 9) LInf NInf.
Definition center_E := Env center_C lin (clip center_C) (fun _ => b64_lit 1 10) (fun _ => 0).
Definition center_p := PSOPar 3 (b64_lit 2 1) (b64_lit 2 1) [one64] [NInf] [PInf] (reflect_v b64ops).
Theorem C61_center_inside_refuted : exists E p, let C := e_cfg E in
  cfg_ok C /\ no_nan (e_prob E) /\ repair_ok E /\ pso_par_ok C p /\
  (exists r w ev a, run_body E (cpso b64ops C p) (fun _ => None) 5 (World (task_init C) [] 0) = (r, w, ev) /\
     In a (w_h w) /\ ~ inside C (fst a)) /\
  ~ best_run E (cpso b64ops C p) /\ ~ mean_inside b64ops C (ps_n p).
Proof.
  exists center_E, center_p. intros C.
  assert (HC : cfg_ok C) by (repeat split; repeat constructor).
  assert (Hn : no_nan (e_prob center_E)) by apply lin_no_nan.
  assert (Hr : repair_ok center_E) by (apply clip_ok; exact HC).
  assert (Hp : pso_par_ok C center_p) by (repeat split; [simpl; lia|apply reflect_len]).
  assert (HX : existsb (fun a => outside (e_cfg center_E) (fst a)) (run_history center_E (cpso b64ops C center_p) 5) = true) by (vm_compute; reflexivity).
  destruct (run_outside (fun _ => False) center_E (cpso b64ops C center_p) 5 HX) as [H1 H2].
  split; [exact HC|]. split; [exact Hn|]. split; [exact Hr|]. split; [exact Hp|]. split; [exact H1|]. split; [exact H2|].
  intros Hm. apply H2. apply (proj2 (proj2 (C61_cpso b64ops center_E center_p HC Hn Hr Hp))). exact Hm.
Qed.

(** the opposite of the upper bound: (0.2 + 0.8) - 0.8 < 0.2 *)
Definition opp_C := Cfg Minimization 1 [b64_lit 2 10] [b64_lit 8 10] (LFin 9) LInf NInf.
Definition opp_E := Env opp_C lin (clip opp_C) (fun _ => b64_lit 8 10) (fun _ => 0).
Definition opp_p := OVPar (PSOPar 1 (b64_lit 2 1) (b64_lit 2 1) [one64] [NInf] [PInf] (reflect_v b64ops))
  (b64_lit 3 10) (b64_lit 4 10) (b64_lit 9 10) (b64_lit 1 10).
Theorem C62_opposite_inside_refuted : exists E p, let C := e_cfg E in
  cfg_ok C /\ no_nan (e_prob E) /\ repair_ok E /\ pso_par_ok C (ov_pso p) /\
  ~ best_run E (ovcpso b64ops C p) /\ ~ opposite_inside b64ops C.
Proof.
  exists opp_E, opp_p. intros C.
  assert (HC : cfg_ok C) by (repeat split; repeat constructor).
  assert (Hn : no_nan (e_prob opp_E)) by apply lin_no_nan.
  assert (Hr : repair_ok opp_E) by (apply clip_ok; exact HC).
  assert (Hp : pso_par_ok C (ov_pso opp_p)) by (repeat split; [simpl; lia|apply reflect_len]).
  assert (HX : existsb (fun a => outside (e_cfg opp_E) (fst a)) (run_history opp_E (ovcpso b64ops C opp_p) 0) = true) by (vm_compute; reflexivity).
  destruct (run_outside (fun _ => False) opp_E (ovcpso b64ops C opp_p) 0 HX) as [_ HB].
  split; [exact HC|]. split; [exact Hn|]. split; [exact Hr|]. split; [exact Hp|]. split; [exact HB|].
  intros Hm. apply HB. apply (proj2 (proj2 (C62_ovcpso b64ops opp_E opp_p HC Hn Hr Hp))). exact Hm.
Qed.

(** The initial velocity bounds are swapped: for any box with exact differences the lower velocity bound
    sigma (upper - lower) is above the upper one; here sigma = 1/8 on [0,1]. *)
Theorem C62_velocity_bounds_refuted : exists E p w pop fit t w', let C := e_cfg E in
  cfg_ok C /\ no_nan (e_prob E) /\ repair_ok E /\ pso_par_ok C (ov_pso p) /\ fltb f0 (ov_sigma p) = true /\
  exec E (ovcpso_init b64ops C p) w = (Ret (pop, fit, t), w') /\
  Forall2 (fun lo hi => fltb hi lo = true) (pt_min t) (pt_max t).
Proof.
  set (p := OVPar (PSOPar 1 one64 one64 [one64; one64] [NInf; NInf] [PInf; PInf] (reflect_v b64ops)) (q 1 2) (q 1 2) (q 1 1) (q 1 8)).
  set (E := exenv (box 2 0 1 (LFin 9)) lin).
  assert (V : match fst (exec E (ovcpso_init b64ops (e_cfg E) p) (world_init (e_cfg E))) with
    | Ret (_, _, t) => match pt_min t, pt_max t with [a; b], [c; d] => fltb c a && fltb d b | _, _ => false end
    | _ => false end = true) by (vm_compute; reflexivity).
  destruct (exec E (ovcpso_init b64ops (e_cfg E) p) (world_init (e_cfg E))) as [r w'] eqn:Q.
  assert (G : exists pop fit t, r = Ret (pop, fit, t) /\ Forall2 (fun lo hi => fltb hi lo = true) (pt_min t) (pt_max t)).
  { clear Q. cbn [fst] in V. destruct r as [[[pop fit] t]|]; [|discriminate]. exists pop, fit, t. split; auto.
    destruct (pt_min t) as [|? [|? [|]]]; try discriminate. destruct (pt_max t) as [|? [|? [|]]]; try discriminate.
    apply andb_true_iff in V. repeat constructor; apply V. }
  destruct G as (pop & fit & t & -> & G).
  exists E, p, (world_init (e_cfg E)), pop, fit, t, w'. intros C.
  split; [apply box_ok; lia|]. split; [apply lin_no_nan|]. split; [apply clip_ok, box_ok; lia|].
  split; [repeat split; [simpl; lia|apply reflect_len]|]. split; [vm_compute; reflexivity|]. split; auto.
Qed.

(** ** Concrete cases *)
Module ExPSO.
  Definition C := box 2 0 1 (LFin 9).
  Definition E := exenv C lin.
  Definition p := PSOPar 2 (q 2 1) (q 1 1) [q 1 2; q 1 2] [q (-1) 4; q (-1) 4] [q 1 4; q 1 4] (reflect_v fx).
  Example hyps : cfg_ok C /\ 0 < c_dim C /\ no_nan (e_prob E) /\ repair_ok E /\ pso_par_ok C p /\ 1 < ps_n p.
  Proof.
    split; [apply box_ok; lia|]. split; [simpl; lia|]. split; [apply lin_no_nan|]. split; [apply clip_ok, box_ok; lia|].
    split; [|simpl; lia]. repeat split; auto. simpl; lia. apply reflect_len.
  Qed.
  Example wvcpso_trace : trace E (wvcpso fx C p) 9 =
    (Ret ([32874; 12290], 57454), [[8192; 40960]; [24576; 24576]; [22528; 26624]; [24576; 24576]; [29952;
    18176]; [25248; 18976]; [31900; 14252]; [31404; 15585]; [32874; 12290]])%Z.
  Proof. vm_compute. reflexivity. Qed.
  Example pso_trace : trace E (pso b64ops C 2 (q 2 1) (q 1 1) (reflect_v b64ops)) 9 =
    (Ret ([46482; 0], 46482), [[8192; 40960]; [24576; 24576]; [22528; 26624]; [24576; 24576]; [37120; 11008];
    [26144; 12704]; [47596; 0]; [46482; 0]; [57376; 0]])%Z.
  Proof. vm_compute. reflexivity. Qed.
  Example cpso_trace : trace E (cpso fx C p) 9 =
    (Ret ([31900; 14252], 60404), [[8192; 40960]; [24576; 24576]; [22528; 26624]; [24576; 24576]; [23552;
    25600]; [29952; 18176]; [25248; 18976]; [27600; 18576]; [31900; 14252]])%Z.
  Proof. vm_compute. reflexivity. Qed.
  Example mpso_trace : trace E (mpso fx C p 2) 9 =
    (Ret ([250; 0], 250), [[8192; 40960]; [24576; 24576]; [22528; 26624]; [24576; 24576]; [65536; 0]; [65536;
    0]; [18176; 12544]; [22176; 17056]; [250; 0]])%Z.
  Proof. vm_compute. reflexivity. Qed.
  Example mcpso_trace : trace E (mcpso fx C p 2) 9 =
    (Ret ([18176; 12544], 43264), [[8192; 40960]; [24576; 24576]; [22528; 26624]; [24576; 24576]; [23552;
    25600]; [65536; 0]; [65536; 0]; [18176; 12544]; [22176; 17056]])%Z.
  Proof. vm_compute. reflexivity. Qed.
  Example mcupso_trace : trace E (mcupso fx C p 2) 9 =
    (Ret ([0; 0], 0), [[8192; 40960]; [24576; 24576]; [8960; 32000]; [16036; 24924]; [12498; 28462]; [0; 348];
    [0; 0]; [4444; 26020]; [11014; 11467]])%Z.
  Proof. vm_compute. reflexivity. Qed.
  Definition E2 := exenv (Cfg Minimization 2 (c_lower C) (c_upper C) (LFin 16) (LFin 9) NInf) lin.
  Example ovcpso_trace : trace E2 (ovcpso fx (e_cfg E2) (OVPar p (q 1 2) (q 1 4) (q 1 2) (q 1 8))) 9 =
    (Ret ([24576; 24576], 73728), [[8192; 40960]; [24576; 24576]; [57344; 24576]; [40960; 40960]; [32768;
    32768]; [14336; 34816]; [35384; 36920]; [16554; 38997]; [30151; 28615]; [48981; 26538]; [35384; 36920];
    [48981; 26538]; [33954; 33385]; [18685; 43664]; [37422; 37681]; [22632; 48293]])%Z.
  Proof. vm_compute. reflexivity. Qed.
  Example clpso_trace : trace E2 (clpso fx (e_cfg E2) (CLPar p 2 (q 1 1) (q 1 4) (q 3 2))) 9 =
    (Ret ([27035; 22116], 71268), [[8192; 40960]; [24576; 24576]; [17408; 31744]; [24576; 24576]; [22975;
    26176]; [24576; 24576]; [25267; 23884]; [24965; 24186]; [26031; 23120]; [25695; 23456]; [26350; 22801];
    [26367; 22784]; [26519; 22632]; [26789; 22362]; [26769; 22382]; [27035; 22116]])%Z.
  Proof. vm_compute. reflexivity. Qed.
End ExPSO.

Print Assumptions C38_wvcpso. Print Assumptions C38_pso. Print Assumptions C38_velocity. Print Assumptions C38_particle.
Print Assumptions C38_personal_best. Print Assumptions C61_mpso. Print Assumptions C61_cpso. Print Assumptions C61_mcpso.
Print Assumptions C61_mcupso. Print Assumptions C61_center_inside_refuted. Print Assumptions C62_ovcpso.
Print Assumptions C62_opposite_inside_refuted. Print Assumptions C62_velocity_bounds_refuted. Print Assumptions C63_clpso. Print Assumptions C63_clpso_64.
