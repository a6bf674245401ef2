(** Final theorems about Algorithm.get_best, Algorithm.run, integers, initial populations and
    Individual (C20-C23, C25-C30, C58). *)
From Coq Require Import ZArith Lia Bool List Sorted.
From Verif Require Import Num Task TaskSpec TaskProofs TaskProofs2 Prog Wp GetBest Run RunSpec RunProofs RunProofs2
  AlgoLib Indiv IndivLib.
Import ListNotations.
Local Arguments Nat.modulo : simpl never.

(** ** C20: get_best *)

(** first position with the smallest value *)
Definition first_smallest (fit : list num) (b : nat) : Prop :=
  exists m, nth_error fit b = Some m /\
    (forall i v, nth_error fit i = Some v -> fleb m v = true) /\
    (forall i v, i < b -> nth_error fit i = Some v -> fltb m v = true).

Theorem C20_get_best : forall pop fit bx bf,
  length pop = length fit -> fit <> [] -> Forall (fun v => v <> NaN) fit -> bf <> NaN ->
  exists b x m, first_smallest fit b /\ nth_error pop b = Some x /\ nth_error fit b = Some m /\
    (* the population member when it is at least as good, the previous best otherwise *)
    (fleb m bf = true -> get_best pop fit bx bf = Ret (x, m)) /\
    (fltb bf m = true -> get_best pop fit bx bf = match bx with Some y => Ret (y, bf) | None => Raise EAttr end).
Proof.
  intros pop fit bx bf Hl Hne Hn Hb.
  destruct (get_best_spec pop fit bx bf Hl Hne Hn) as (b & m & M & E & (x & Ex)).
  exists b, x, m. split; [exists m; apply M|]. split; auto. split; [apply M|]. rewrite E, Ex. split; intros G.
  - rewrite G; auto.
  - destruct (fleb m bf) eqn:Q; auto. rewrite (fleb_fltb_false _ _ Q) in G. discriminate.
Qed.
Theorem C20_get_best_scalar : forall x f bx bf, f <> NaN -> bf <> NaN ->
  (fleb f bf = true -> get_best1 x f bx bf = Ret (x, f)) /\
  (fltb bf f = true -> get_best1 x f bx bf = match bx with Some y => Ret (y, bf) | None => Raise EAttr end).
Proof.
  intros x f bx bf Hf Hb. unfold get_best1. split; intros G; [rewrite G; auto|].
  destruct (fleb f bf) eqn:Q; auto. rewrite (fleb_fltb_false _ _ Q) in G. discriminate.
Qed.
(** the best value never gets worse *)
Theorem C20_never_worse : forall pop fit bx bf x f,
  length pop = length fit -> Forall (fun v => v <> NaN) fit -> bf <> NaN ->
  get_best pop fit bx bf = Ret (x, f) -> fleb f bf = true /\ (forall v, In v fit -> fleb f v = true) /\
  ((bx = Some x /\ f = bf) \/ member pop fit x f).
Proof.
  intros pop fit bx bf x f Hl Hn Hb H.
  assert (Hne : fit <> []) by (intros ->; discriminate H).
  destruct (C20_get_best pop fit bx bf Hl Hne Hn Hb) as (b & y & m & (m' & M1 & M2 & M3) & Ey & Em & G1 & G2).
  assert (Q : m' = m) by congruence. subst m'.
  assert (Hm : m <> NaN) by (rewrite Forall_forall in Hn; apply Hn; eapply nth_error_In; eauto).
  assert (Hall : forall v, In v fit -> fleb m v = true).
  { intros v Hv. apply In_nth_error in Hv. destruct Hv as [k Hk]. eauto. }
  destruct (fleb m bf) eqn:Q.
  - rewrite G1 in H; auto. inversion H; subst. split; auto. split; auto. right. exists b; auto.
  - apply fleb_false_fltb in Q; auto. rewrite G2 in H; auto. destruct bx as [z|]; [|discriminate].
    inversion H; subst. split; [apply fleb_refl; auto|]. split; auto.
    intros v Hv. eapply fleb_trans; [apply fltb_fleb; eauto|auto].
Qed.
Example C20_case : get_best [[Fin 1]; [Fin 2]; [Fin 3]] [Fin 7; Fin 4; Fin 4] (Some [Fin 0]) (Fin 4) = Ret ([Fin 2], Fin 4)
  /\ get_best [[Fin 1]] [Fin 7] (Some [Fin 0]) (Fin 4) = Ret ([Fin 0], Fin 4).
Proof. vm_compute. auto. Qed.

(** ** C21 (refuted): one NaN hides a better individual *)
Theorem C21_nan_refuted : exists pop fit bx bf f, length pop = length fit /\
  In f fit /\ fltb f bf = true /\
  get_best pop fit (Some bx) bf = Ret (bx, bf).
Proof.
  exists [[Fin 1]; [Fin 2]], [NaN; Fin 3], [Fin 0], (Fin 9), (Fin 3). vm_compute. auto 10.
Qed.
(** even without a previous best the method fails *)
Theorem C21_nan_initial_refuted : exists pop fit, length pop = length fit /\ In (Fin 3) fit /\
  get_best pop fit None PInf = Raise EAttr.
Proof. exists [[Fin 1]; [Fin 2]], [NaN; Fin 3]. vm_compute. auto. Qed.

(** ** C22: the callback protocol *)
Theorem C22_protocol : forall E A cb n w r w' ev, run_body E A cb n w = (r, w', ev) ->
  (* before_run comes first; nothing else happened *)
  (rev ev = [BeforeRun] /\ exists e, r = Raise e) \/
  exists k s es s', iterations k s es s' /\ k <= n /\
  match r with
  | Ret (x, v) =>
      rev ev = BeforeRun :: es ++ [AfterRun] /\ t_iters (w_ts w') = t_iters (w_ts w) + k /\
      x = snd (fst s') /\ v = sgn (c_opt (e_cfg E)) (snd s') /\
      stopping_condition (e_cfg E) (w_ts w') = true
  | Raise e =>
      rev ev = BeforeRun :: es \/ rev ev = BeforeRun :: es ++ [before_ev s'] \/
      (* after_run itself raised *)
      (rev ev = BeforeRun :: es ++ [AfterRun] /\ cb ev = Some e)
  end.
Proof.
  intros E A cb n w r w' ev H. rewrite run_body_unfold in H.
  destruct (cb [BeforeRun]) as [e|]; [inversion H; subst; left; split; [reflexivity|eauto]|].
  destruct (exec E (init_prog A) w) as [[s|e] w1] eqn:Ex; [|inversion H; subst; left; split; [reflexivity|eauto]].
  right. destruct (loop E A cb n s w1 [BeforeRun]) as [[o w2] ev2] eqn:El.
  destruct (loop_events _ _ _ _ _ _ _ _ _ _ El) as (k & es & s' & I1 & I2 & _ & I4).
  exists k, (snap_of s), es, s'. split; auto. split; auto.
  assert (Hi := exec_iters _ _ _ _ _ _ Ex).
  destruct o as [[x f]|e].
  - destruct I4 as (-> & <- & <- & J4 & J5).
    destruct (cb (AfterRun :: rev es ++ [BeforeRun])) as [e|] eqn:Ec; inversion H; subst.
    + right; right. split; auto. simpl. rewrite rev_app_distr, rev_involutive. reflexivity.
    + split; [simpl; rewrite rev_app_distr, rev_involutive; reflexivity|]. split; [lia|]. auto.
  - inversion H; subst. destruct I4 as [->| ->].
    + left. rewrite rev_app_distr, rev_involutive. reflexivity.
    + right; left. simpl. rewrite rev_app_distr, rev_involutive. reflexivity.
Qed.

(** ** C23: a finite max_iters bounds the run *)
Theorem C23_iterations : forall E A cb n m w r w' ev, c_max_iters (e_cfg E) = LFin m ->
  run_body E A cb n w = (r, w', ev) -> t_iters (w_ts w) = 0 ->
  length (filter (fun e => match e with AfterIter _ _ _ => true | _ => false end) ev) <= Z.to_nat m.
Proof.
  intros E A cb n m w r w' ev Hm H Hz. rewrite run_body_unfold in H.
  assert (Hcnt : forall k s es s', iterations k s es s' ->
     length (filter (fun e => match e with AfterIter _ _ _ => true | _ => false end) (rev es)) = k).
  { intros k s es s' I. induction I; simpl; auto. rewrite rev_app_distr. simpl.
    destruct s1 as [[? ?] ?], s2 as [[? ?] ?]. simpl. rewrite IHI. auto. }
  destruct (cb [BeforeRun]) as [e|]; [inversion H; subst; simpl; lia|].
  destruct (exec E (init_prog A) w) as [[s|e] w1] eqn:Ex; [|inversion H; subst; simpl; lia].
  destruct (loop E A cb n s w1 [BeforeRun]) as [[o w2] ev2] eqn:El.
  destruct (loop_events _ _ _ _ _ _ _ _ _ _ El) as (k & es & s' & I1 & _ & I3 & I4).
  assert (Hk : k <= Z.to_nat m).
  { rewrite (exec_iters _ _ _ _ _ _ Ex), Hz in I3. destruct (I3 m Hm); lia. }
  assert (Hev : length (filter (fun e => match e with AfterIter _ _ _ => true | _ => false end) ev2) <= k).
  { specialize (Hcnt _ _ _ _ I1). destruct o as [[x f]|e].
    - destruct I4 as (-> & _). rewrite filter_app, app_length. simpl. lia.
    - destruct s' as [[? ?] ?]. destruct I4 as [->| ->]; simpl; rewrite filter_app, app_length; simpl; lia. }
  destruct o as [[x f]|e]; [destruct (cb (AfterRun :: ev2))|]; inversion H; subst; simpl; lia.
Qed.
(** and the run ends: no more than max_iters iterations of fuel are ever needed *)
Theorem C23_terminates : forall E A cb n m w r w' ev, c_max_iters (e_cfg E) = LFin m -> Z.to_nat m <= n ->
  (* every iteration and the initialization return or raise something of their own *)
  (forall pop fit xb fxb par w0 w1, exec E (a_iter A pop fit xb fxb par) w0 <> (Raise EFuel, w1)) ->
  (forall w1, exec E (a_init A) w <> (Raise EFuel, w1)) ->
  (forall ev0, cb ev0 <> Some EFuel) ->
  run_body E A cb n w = (r, w', ev) -> r <> Raise EFuel.
Proof.
  intros E A cb n m w r w' ev Hm Hn Hnf Hni Hcb H. unfold run_body in H.
  destruct (cb [BeforeRun]) as [e|] eqn:E0. { inversion H; subst. intros Q; inversion Q; subst. eapply Hcb; eauto. }
  destruct (exec E (a_init A) w) as [[[[pop fit] par]|e] w1] eqn:Ex.
  2:{ inversion H; subst. intros Q; inversion Q; subst. eapply Hni; eauto. }
  destruct (get_best (a_coords A pop) fit None PInf) as [[xb fxb]|e] eqn:Eg.
  2:{ inversion H; subst. intros Q; inversion Q; subst. revert Eg. clear. unfold get_best.
      destruct (argmin fit); [|discriminate]. destruct (nth_error fit n); [|discriminate].
      destruct (fleb n0 PInf); [|discriminate]. destruct (nth_error (a_coords A pop) n); discriminate. }
  destruct (loop E A cb n (RState pop fit xb fxb par) w1 [BeforeRun]) as [[o w2] ev2] eqn:El.
  assert (L := loop_terminates E A cb m n _ w1 _ o w2 ev2 Hm ltac:(lia) Hnf Hcb El).
  destruct o as [[x f]|e].
  - destruct (cb (AfterRun :: ev2)) as [e|] eqn:E1; inversion H; subst; [|discriminate].
    intros Q; inversion Q; subst. eapply Hcb; eauto.
  - inversion H; subst; auto.
Qed.

(** ** C25: exceptions are reported *)
(** An exception raised by the problem function during a run is the last thing that happens, and it
    is what run reports: in the main thread it leaves run, elsewhere run returns (None, None) and
    bad_run() is true. *)
Theorem C25_problem_exception : forall E A cb n main exc w o exc' w' ev,
  run E A cb n main exc w = (o, exc', w', ev) -> w_h w = [] ->
  forall x e, In (x, Raise e) (w_h w') ->
  hd_error (w_h w') = Some (x, Raise e) /\
  (main = true -> o = Raise e /\ exc' = exc) /\
  (main = false -> o = Ret None /\ exc' = Some e /\ bad_run exc' = true).
Proof.
  intros E A cb n main exc w o exc' w' ev H Hw x e Hin. unfold run in H.
  destruct (run_body E A cb n w) as [[r w1] ev1] eqn:R.
  assert (G := run_raise _ _ _ _ _ _ _ _ R). rewrite Hw in G. specialize (G (Forall_nil _)).
  assert (w' = w1) by (destruct r; [|destruct main]; inversion H; auto). subst w1.
  destruct G as [G|(x0 & e0 & h' & Eh & G & ->)].
  { exfalso. rewrite Forall_forall in G. apply (G _ Hin). exists e. auto. }
  rewrite Eh in *. destruct Hin as [Q|Hin].
  2:{ exfalso. rewrite Forall_forall in G. apply (G _ Hin). exists e. auto. }
  inversion Q; subst. split; auto. split; intros ->; inversion H; subst; auto.
Qed.
(** The same for an exception raised by a callback. *)
Theorem C25_callback_exception : forall E A cb n main exc w o exc' w' ev,
  run E A cb n main exc w = (o, exc', w', ev) ->
  forall seen e, (exists later, ev = later ++ seen) -> seen <> [] -> cb seen = Some e ->
  seen = ev /\
  (main = true -> o = Raise e /\ exc' = exc) /\
  (main = false -> o = Ret None /\ exc' = Some e /\ bad_run exc' = true).
Proof.
  intros E A cb n main exc w o exc' w' ev H seen e [later El] Hne Hc. unfold run in H.
  destruct (run_body E A cb n w) as [[r w1] ev1] eqn:R.
  assert (ev = ev1) by (destruct r; [|destruct main]; inversion H; auto). subst ev1.
  destruct (run_cb _ _ _ _ _ _ _ _ R) as [Q|(a & ev0 & c & -> & -> & Ec & Q)].
  - rewrite (Q _ _ El Hne) in Hc. discriminate.
  - destruct later as [|b later]; simpl in El.
    + subst. split; auto. assert (c = e) by congruence. subst.
      split; intros ->; inversion H; subst; auto.
    + inversion El; subst. rewrite (Q later seen eq_refl Hne) in Hc. discriminate.
Qed.
(** Whatever was raised: in the main thread run raises; elsewhere it returns (None, None) exactly
    when it raised, and then bad_run() is true; a run that raised nothing leaves bad_run() alone. *)
Theorem C25_report : forall E A cb n main exc w o exc' w' ev,
  run E A cb n main exc w = (o, exc', w', ev) ->
  match fst (fst (run_body E A cb n w)) with
  | Raise e => if main then o = Raise e /\ exc' = exc else o = Ret None /\ bad_run exc' = true
  | Ret r => o = Ret (Some r) /\ bad_run exc' = bad_run exc
  end.
Proof.
  intros E A cb n main exc w o exc' w' ev H. unfold run in H.
  destruct (run_body E A cb n w) as [[[r|e] w1] ev1]; simpl; [|destruct main]; inversion H; subst; auto.
Qed.

(** ** C26: bad_run over a sequence of runs *)
(** a run: the thread it runs in and what its body did *)
Definition run_seq (exc : option exn) (rs : list (bool * outcome (vec * num))) : option exn :=
  fold_left (fun (exc : option exn) (r : bool * outcome (vec * num)) => match snd r with
                          | Ret _ => exc
                          | Raise e => if fst r then exc else Some e end) rs exc.
(** [run_seq] is what consecutive runs do to the attribute *)
Lemma run_seq_run : forall E A cb n main exc w o exc' w' ev,
  run E A cb n main exc w = (o, exc', w', ev) ->
  exc' = run_seq exc [(main, fst (fst (run_body E A cb n w)))].
Proof.
  intros E A cb n main exc w o exc' w' ev H. unfold run in H. simpl.
  destruct (run_body E A cb n w) as [[[r|e] w1] ev1]; simpl; [|destruct main]; inversion H; subst; auto.
Qed.
(** bad_run() says whether some run outside the main thread has ever raised ... *)
Theorem C26_bad_run_history_partial : forall rs,
  bad_run (run_seq None rs) = true <-> exists e, In (false, Raise e) rs.
Proof.
  intros rs. unfold run_seq. rewrite <- fold_left_rev_right.
  assert (G : forall l, bad_run (fold_right (fun (y : bool * outcome (vec * num)) x => match snd y with Ret _ => x | Raise e => if fst y then x else Some e end) None l) = true
     <-> exists e, In (false, @Raise (vec * num) e) l).
  { induction l as [|[m r] l IH]; simpl.
    - split; [discriminate|intros [e []]].
    - destruct r as [v|e]; simpl.
      + rewrite IH. split; intros [e He]; exists e; auto. destruct He as [Q|]; auto. discriminate.
      + destruct m; simpl.
        * rewrite IH. split; intros [e0 He]; exists e0; auto. destruct He as [Q|]; auto. discriminate.
        * split; auto. intros _. exists e; auto. }
  rewrite G. split; intros [e He]; exists e; [apply in_rev in He|apply in_rev; rewrite rev_involutive]; auto.
Qed.

(** ... which is not whether the last run raised: after a failed run a successful one leaves it true,
    and a run that fails in the main thread leaves it false.  The witness is a random search with one
    individual on a one-dimensional task. *)
Definition rs1 (C : cfg) : algo :=
  Algo (list vec) unit (fun p => p)
    (let* (pop, fit) := default_numpy_init C 1 in Done (pop, fit, tt))
    (fun pop fit xb fxb _ =>
       let* (pop', fit') := default_numpy_init C 1 in
       let* (x, f) := lift (get_best pop' fit' (Some xb) fxb) in Done (pop', fit', x, f, tt)).
Definition c26_cfg := Cfg Minimization 1 [Fin 0] [Fin 9] (LFin 3) LInf NInf.
Definition c26_env (P : problem) := Env c26_cfg P (fun _ x => x) (fun p => Fin (5 - Z.of_nat p)) (fun _ => 0).
Definition c26_bad : problem := fun h _ => match h with [] => Ret (Fin 4) | _ => Raise (EProblem 1) end.
Definition c26_good : problem := fun _ x => match x with a :: _ => Ret a | [] => Ret PInf end.
Definition silent : callback := fun _ => None.
Theorem C26_bad_run_refuted : exists w1 ev1 w2 ev2 x v,
  run (c26_env c26_bad) (rs1 c26_cfg) silent 9 false None (World (task_init c26_cfg) [] 0)
    = (Ret None, Some (EProblem 1), w1, ev1) /\
  run (c26_env c26_good) (rs1 c26_cfg) silent 9 false (Some (EProblem 1)) (World (task_init c26_cfg) [] 0)
    = (Ret (Some (x, v)), Some (EProblem 1), w2, ev2) /\
  bad_run (Some (EProblem 1)) = true.
Proof. do 6 eexists. vm_compute. repeat split. Qed.
Theorem C26_main_thread_refuted : exists w1 ev1 e,
  run (c26_env c26_bad) (rs1 c26_cfg) silent 9 true None (World (task_init c26_cfg) [] 0)
    = (Raise e, None, w1, ev1) /\ bad_run None = false.
Proof. do 3 eexists. vm_compute. repeat split. Qed.

(** the same two runs show that the hypotheses of C22, C23, C25 are met by real runs *)
Example C22_case : exists w' ev, run_body (c26_env c26_good) (rs1 c26_cfg) silent 9 (World (task_init c26_cfg) [] 0)
  = (Ret ([Fin 3], Fin 3), w', ev) /\
  rev ev = [BeforeRun; BeforeIter [Fin 5] [Fin 5] (Fin 5); AfterIter [Fin 4] [Fin 4] (Fin 4);
            BeforeIter [Fin 4] [Fin 4] (Fin 4); AfterIter [Fin 3] [Fin 3] (Fin 3); AfterRun].
Proof. do 2 eexists. vm_compute. split; reflexivity. Qed.
Example C25_case : exists o exc w' ev x e,
  run (c26_env c26_bad) (rs1 c26_cfg) silent 9 true None (World (task_init c26_cfg) [] 0) = (o, exc, w', ev) /\
  In (x, Raise e) (w_h w') /\ length (w_h w') = 2.
Proof.
  do 4 eexists. exists [Fin 4], (EProblem 1). vm_compute. split; [reflexivity|]. split; [left; reflexivity|reflexivity].
Qed.

(** ** C27: integers(low, high, skip) *)
Theorem C27_skip : forall E fuel low high skip w r w',
  exec E (integers_skip fuel low high skip) w = (Ret r, w') ->
  low <= r < high /\ ~ In r skip.
Proof.
  intros E fuel low high skip. induction fuel as [|n IH]; intros w r w' H; simpl in H; [discriminate|].
  unfold integers in H. destruct (high - low) as [|m] eqn:Em; simpl in H; [discriminate|].
  destruct (existsb (Nat.eqb (low + e_int E (w_pos w) mod S m)) skip) eqn:Es; [eauto|].
  simpl in H. inversion H; subst. pose proof (Nat.mod_upper_bound (e_int E (w_pos w)) (S m) (Nat.neq_succ_0 m)). split; [lia|].
  intros Hin. assert (existsb (Nat.eqb (low + e_int E (w_pos w) mod S m)) skip = true).
  { apply existsb_exists. eexists; split; [exact Hin|apply Nat.eqb_refl]. }
  congruence.
Qed.
(** every allowed value can be drawn *)
Theorem C27_reaches_all : forall C P rep flt low high skip v, low <= v < high -> ~ In v skip ->
  exists ints, forall fuel w, w_pos w = 0 ->
  fst (exec (Env C P rep flt ints) (integers_skip (S fuel) low high skip) w) = Ret v.
Proof.
  intros C P rep flt low high skip v Hv Hs. exists (fun _ => v - low). intros fuel w Hw.
  simpl. unfold integers. destruct (high - low) as [|m] eqn:Em; [lia|]. simpl.
  rewrite Nat.mod_small; [|lia]. replace (low + (v - low)) with v by lia.
  destruct (existsb (Nat.eqb v) skip) eqn:Es; auto. exfalso. apply existsb_exists in Es.
  destruct Es as (u & U1 & U2). apply Nat.eqb_eq in U2. subst; auto.
Qed.
(** when every value is skipped it never returns *)
Theorem C27_all_skipped : forall E fuel low high skip w, low < high ->
  (forall v, low <= v < high -> In v skip) ->
  fst (exec E (integers_skip fuel low high skip) w) = Raise EFuel.
Proof.
  intros E fuel low high skip. induction fuel as [|n IH]; intros w Hlh H; auto. simpl. unfold integers.
  destruct (high - low) as [|m] eqn:Em; [lia|]. simpl.
  pose proof (Nat.mod_upper_bound (e_int E (w_pos w)) (S m) (Nat.neq_succ_0 m)).
  assert (existsb (Nat.eqb (low + e_int E (w_pos w) mod S m)) skip = true) as ->.
  { apply existsb_exists. exists (low + e_int E (w_pos w) mod S m). split; [apply H; lia|apply Nat.eqb_refl]. }
  apply IH; auto.
Qed.

(** ** C28, C29: initial populations and Individual.evaluate, in terms of calls of task.eval *)
Definition calls_of (xs : list vec) : list call := map CEval xs.
Definition answers (fs : list num) : list answer := map (fun f => AFloat (Ret f)) fs.

Lemma exec_mapM_eval : forall E xs w fs w', exec E (mapM eval xs) w = (Ret fs, w') ->
  do_calls (e_cfg E) (e_prob E) (tw_of w) (calls_of xs) = (answers fs, tw_of w') /\ length fs = length xs.
Proof.
  intros E. induction xs as [|x xs IH]; intros w fs w' H; simpl in H.
  - inversion H; subst. simpl. auto.
  - simpl. destruct (task_eval (e_cfg E) (e_prob E) (w_h w) (w_ts w) x) as [[[v|e] t] h] eqn:Et; [|discriminate].
    rewrite exec_bind in H. destruct (exec E (mapM eval xs) (World t h (w_pos w))) as [[gs|e] w1] eqn:Ex; [|discriminate].
    simpl in H. inversion H; subst. destruct (IH _ _ _ Ex) as [G1 G2].
    change (tw_of (World t h (w_pos w))) with (TW t h) in G1.
    rewrite G1. simpl. auto.
Qed.
Lemma exec_uniform_pop : forall E n w r w', exec E (uniform_pop (e_cfg E) n) w = (r, w') ->
  tw_of w' = tw_of w.
Proof.
  intros E n. assert (V : forall lo hi w r w', exec E (uniform_vec lo hi) w = (r, w') -> tw_of w' = tw_of w).
  { induction lo as [|a lo IH]; intros [|b hi] w r w' H; simpl in H; try (inversion H; auto; fail).
    rewrite exec_bind in H. destruct (exec E (uniform_vec lo hi) _) as [[rs|e] w1] eqn:Ex.
    - simpl in H. inversion H; subst. rewrite (IH _ _ _ _ Ex). auto.
    - inversion H; subst. rewrite (IH _ _ _ _ Ex). auto. }
  induction n; intros w r w' H; simpl in H; [inversion H; auto|].
  rewrite exec_bind in H. destruct (exec E (uniform_vec _ _) w) as [[x|e] w1] eqn:E1.
  - rewrite exec_bind in H. destruct (exec E (uniform_pop (e_cfg E) n) w1) as [[xs|e] w2] eqn:E2.
    + simpl in H. inversion H; subst. rewrite (IHn _ _ _ E2). eauto.
    + inversion H; subst. rewrite (IHn _ _ _ E2). eauto.
  - inversion H; subst. eauto.
Qed.
Theorem C28_numpy_init : forall E n w pop fit w', cfg_ok (e_cfg E) ->
  exec E (default_numpy_init (e_cfg E) n) w = (Ret (pop, fit), w') ->
  length pop = n /\ length fit = n /\ Forall (inside (e_cfg E)) pop /\
  (* the task is where evaluating the members in order takes it, with these answers *)
  do_calls (e_cfg E) (e_prob E) (tw_of w) (calls_of pop) = (answers fit, tw_of w').
Proof.
  intros E n w pop fit w' HC H. unfold default_numpy_init in H. rewrite exec_bind in H.
  destruct (exec E (uniform_pop (e_cfg E) n) w) as [[xs|e] w1] eqn:E1; [|discriminate].
  assert (G : length xs = n /\ Forall (inside (e_cfg E)) xs).
  { pose (K := WCtx (fun _ => True) (fun _ _ => True) (fun _ => True) (fun _ => True)).
    assert (W : wp K (uniform_pop (e_cfg E) n) (fun xs _ => length xs = n /\ Forall (inside (e_cfg E)) xs)
                 (log_of (c_opt (e_cfg E)) (w_h w))) by (apply w_uniform_pop; auto).
    refine (proj2 (wp_sound _ K E _ _ w _ _ _ W E1)). split; simpl; auto. }
  destruct G as [G1 G2]. rewrite exec_bind in H. unfold eval_all in H.
  destruct xs as [|x0 xs]; [discriminate|].
  destruct (exec E (mapM eval (x0 :: xs)) w1) as [[fs|e] w2] eqn:E2; [|discriminate].
  simpl in H. inversion H; subst. destruct (exec_mapM_eval _ _ _ _ _ E2) as [G3 G4].
  rewrite (exec_uniform_pop _ _ _ _ _ E1) in G3. split; auto.
Qed.

Lemma exec_uniform_vec : forall E lo hi w r w', exec E (uniform_vec lo hi) w = (r, w') ->
  tw_of w' = tw_of w /\ exists x, r = Ret x.
Proof.
  intros E. induction lo as [|a lo IH]; intros [|b hi] w r w' H; simpl in H; try (inversion H; eauto; fail).
  rewrite exec_bind in H. destruct (exec E (uniform_vec lo hi) _) as [o w1] eqn:Ex.
  destruct (IH _ _ _ _ Ex) as [G [x ->]]. simpl in H. inversion H; subst. rewrite G. eauto.
Qed.
(** C29 *)
Theorem C29_evaluate : forall E x w r w', exec E (ind_evaluate x) w = (r, w') ->
  exists y, y = e_rep E (w_pos w) x /\
  match do_call (e_cfg E) (e_prob E) (tw_of w) (CEval y) with
  | (AFloat (Ret f), tw) => r = Ret (y, f) /\ tw_of w' = tw
  | (AFloat (Raise e), tw) => r = Raise e /\ tw_of w' = tw
  | _ => False
  end.
Proof.
  intros E x w r w' H. simpl in H. eexists; split; [reflexivity|]. simpl.
  destruct (task_eval (e_cfg E) (e_prob E) (w_h w) (w_ts w) (e_rep E (w_pos w) x)) as [[[v|e] t] h]; inversion H; subst; simpl; auto.
Qed.
Theorem C29_inside : forall E x w y f w', repair_ok E -> length x = c_dim (e_cfg E) ->
  exec E (ind_evaluate x) w = (Ret (y, f), w') -> inside (e_cfg E) y.
Proof.
  intros E x w y f w' HR Hl H. destruct (C29_evaluate _ _ _ _ _ H) as (z & -> & G).
  destruct (do_call _ _ _ _) as [[[v|e]| |] tw]; try contradiction; destruct G as [G _]; inversion G; subst.
  apply HR; auto.
Qed.
Theorem C28_individual_init : forall E n w pop fit w', cfg_ok (e_cfg E) -> repair_ok E ->
  exec E (default_individual_init (e_cfg E) n) w = (Ret (pop, fit), w') ->
  length pop = n /\ fit = map snd pop /\ Forall (inside (e_cfg E)) (map fst pop) /\
  do_calls (e_cfg E) (e_prob E) (tw_of w) (calls_of (map fst pop)) = (answers fit, tw_of w').
Proof.
  intros E n w pop fit w' HC HR H. unfold default_individual_init in H. rewrite exec_bind in H.
  destruct (exec E (repeatM n (rand_ind (e_cfg E))) w) as [[ps|e] w1] eqn:E1; [|discriminate].
  simpl in H. inversion H; subst. clear H.
  assert (G : forall n w ps w1, exec E (repeatM n (rand_ind (e_cfg E))) w = (Ret ps, w1) ->
    length ps = n /\ Forall (inside (e_cfg E)) (map fst ps) /\
    do_calls (e_cfg E) (e_prob E) (tw_of w) (calls_of (map fst ps)) = (answers (map snd ps), tw_of w1)).
  { clear - HC HR. induction n as [|n IH]; intros w ps w1 H; simpl in H; [inversion H; subst; simpl; auto|].
    rewrite exec_bind in H. unfold rand_ind in H at 1. rewrite exec_bind in H.
    destruct (exec E (uniform_vec _ _) w) as [o w2] eqn:E2.
    assert (HL : exists x, o = Ret x /\ length x = c_dim (e_cfg E)).
    { destruct (exec_uniform_vec _ _ _ _ _ _ E2) as [_ [x ->]]. exists x. split; auto.
      pose (K := WCtx (fun _ => True) (fun _ _ => True) (fun _ => True) (fun _ => True)).
      assert (W : wp K (uniform_vec (c_lower (e_cfg E)) (c_upper (e_cfg E))) (fun x _ => length x = c_dim (e_cfg E))
                   (log_of (c_opt (e_cfg E)) (w_h w))).
      { apply w_uniform_pt; auto. intros z Hz. apply inside_len; auto. }
      refine (proj2 (wp_sound _ K E _ _ w _ _ _ W E2)). split; simpl; auto. }
    destruct HL as (x & -> & HL). destruct (exec_uniform_vec _ _ _ _ _ _ E2) as [T2 _].
    destruct (exec E (ind_evaluate x) w2) as [[[y f]|e] w3] eqn:E3; [|discriminate].
    rewrite exec_bind in H. destruct (exec E (repeatM n (rand_ind (e_cfg E))) w3) as [[qs|e] w4] eqn:E4; [|discriminate].
    simpl in H. inversion H; subst. destruct (IH _ _ _ E4) as (I1 & I2 & I3).
    pose proof (C29_inside _ _ _ _ _ _ HR HL E3) as Hy.
    destruct (C29_evaluate _ _ _ _ _ E3) as (z & Ez & G). rewrite T2 in G.
    split; [simpl; auto|]. split; [simpl; constructor; auto|].
    change (calls_of (map fst ((y, f) :: qs))) with (CEval y :: calls_of (map fst qs)). cbn [do_calls].
    destruct (do_call _ _ _ _) as [[[v|e]| |] tw] eqn:Ed; try contradiction; destruct G as [G1 G2]; inversion G1; subst.
    rewrite Ed, I3. reflexivity. }
  destruct (G _ _ _ _ E1) as (G1 & G2 & G3). auto.
Qed.

(** the evaluations spent: as many as there are members, or until the task stopped *)
Theorem C28_budget : forall C P tw xs ans tw',
  do_calls C P tw (calls_of xs) = (ans, tw') -> (forall h x e, P h x <> Raise e) ->
  exists k, length (tw_h tw') = length (tw_h tw) + k /\ k <= length xs /\
  (k = length xs \/ stopping_condition C (tw_ts tw') = true).
Proof.
  intros C P tw xs. revert tw. induction xs as [|x xs IH]; intros tw ans tw' H HP; cbn [calls_of map do_calls] in H.
  - inversion H; subst. exists 0. simpl. auto.
  - destruct (do_call C P tw (CEval x)) as [a tw1] eqn:E1.
    destruct (do_calls C P tw1 (map CEval xs)) as [l tw2] eqn:E2. inversion H; subst. clear H.
    destruct (IH _ _ _ E2 HP) as (k & K1 & K2 & K3). simpl in E1. unfold task_eval in E1.
    destruct (stopping_condition C (tw_ts tw)) eqn:Es.
    + inversion E1; subst. exists k. split; auto. split; [simpl; lia|]. right.
      assert (S2 := stop_calls C P (map CEval xs) (TW (tw_ts tw) (tw_h tw)) Es). rewrite E2 in S2. auto.
    + destruct (P (tw_h tw) x) as [v|e] eqn:Ep; [|exfalso; eapply HP; eauto].
      inversion E1; subst. simpl in K1. exists (S k). split; [simpl; lia|]. split; [simpl; lia|].
      destruct K3; auto. left; simpl; lia.
Qed.
Corollary C28_min_budget : forall C P xs ans tw' m,
  do_calls C P (tw_init C) (calls_of xs) = (ans, tw') -> (forall h x e, P h x <> Raise e) ->
  (* only the evaluation budget can stop the task *)
  c_max_evals C = LFin m -> c_max_iters C = LInf ->
  reaches (c_opt C) (worst (c_opt C)) (c_cutoff C) = false ->
  (forall h x v, P h x = Ret v -> reaches (c_opt C) v (c_cutoff C) = false) ->
  length (tw_h tw') = Nat.min (length xs) (Z.to_nat m).
Proof.
  intros C P xs ans tw' m H HP Hm Hi Hw Hv.
  destruct (C28_budget _ _ _ _ _ _ H HP) as (k & K1 & K2 & K3). simpl in K1.
  assert (R : reachable C P tw') by (exists (calls_of xs); rewrite H; auto).
  pose proof (tinv_reachable _ _ _ R) as T. destruct T.
  assert (Hret : forall v, In v (returned (tw_h tw')) -> reaches (c_opt C) v (c_cutoff C) = false).
  { assert (HH : forall p, In p (tw_h tw') -> forall v, snd p = Ret v -> reaches (c_opt C) v (c_cutoff C) = false).
    { clear - H Hv. revert H. assert (G0 : forall p, In p (tw_h (tw_init C)) -> forall v, snd p = Ret v -> reaches (c_opt C) v (c_cutoff C) = false)
        by (intros p []). revert G0. generalize (tw_init C). revert ans.
      induction xs as [|x xs IH]; intros ans tw G0 H; cbn [calls_of map do_calls] in H; [inversion H; subst; auto|].
      destruct (do_call C P tw (CEval x)) as [a tw1] eqn:E1.
      destruct (do_calls C P tw1 (map CEval xs)) as [l tw2] eqn:E2. inversion H; subst.
      eapply IH; [|exact E2]. simpl in E1. unfold task_eval in E1.
      destruct (stopping_condition C (tw_ts tw)); [inversion E1; subst; auto|].
      destruct (P (tw_h tw) x) eqn:Ep; inversion E1; subst; simpl; intros p [<-|Hp] v Q; eauto.
      - simpl in Q. inversion Q; subst. eauto.
      - discriminate Q. }
    intros v Hin. apply returned_In in Hin. destruct Hin as [x Hx]. exact (HH _ Hx v eq_refl). }
  assert (Hnr : reaches (c_opt C) (t_xf (tw_ts tw')) (c_cutoff C) = false).
  { destruct ti_best as (_ & [->|B] & _); auto. }
  assert (Wi : within (length (tw_h tw')) (LFin m)) by (rewrite <- Hm; auto).
  simpl in Wi. rewrite K1 in *. destruct K3 as [->|K3]; [lia|].
  unfold stopping_condition in K3. rewrite Hm, Hi in K3. simpl in K3. rewrite reaches_sgn, Hnr in K3.
  rewrite !orb_false_r in K3. apply Z.leb_le in K3. rewrite ti_evals in K3. lia.
Qed.

(** ** C30 (refuted): copy loses the fitness of every evaluated individual *)
Theorem C30_copy_refuted : exists i, snd i <> NaN /\ ind_eq (ind_copy i) i = false.
Proof. exists ([Fin 1], Fin 3). split; [discriminate|reflexivity]. Qed.
(** exactly: the coordinates are kept, the fitness only if it is +inf *)
Theorem C30_copy_partial : forall x f, Forall (fun a => a <> NaN) x ->
  fst (ind_copy (x, f)) = x /\ (ind_eq (ind_copy (x, f)) (x, f) = true <-> f = PInf).
Proof.
  intros x f Hx. split; auto. unfold ind_eq; simpl.
  assert (array_equal x x = true) as ->.
  { induction Hx; simpl; auto. rewrite feqb_refl, IHHx; auto. }
  destruct f; simpl; split; intros H; auto; discriminate.
Qed.

(** ** C58: maximizing f is minimizing -f, for whole runs *)
Theorem C58_run_duality : forall E A cb n pos,
  let a := run_body E A cb n (World (task_init (e_cfg E)) [] pos) in
  let b := run_body (dual_env E) A cb n (World (task_init (e_cfg (dual_env E))) [] pos) in
  (* the callbacks see the same events, the same points are evaluated, the values are negated *)
  snd b = snd a /\
  map fst (w_h (snd (fst b))) = map fst (w_h (snd (fst a))) /\
  map snd (w_h (snd (fst b))) = map neg_outcome (map snd (w_h (snd (fst a)))) /\
  fst (fst b) = match fst (fst a) with Ret (x, v) => Ret (x, fneg v) | Raise e => Raise e end.
Proof.
  intros E A cb n pos. cbv zeta.
  assert (Q : World (task_init (e_cfg (dual_env E))) [] pos = neg_w (World (task_init (e_cfg E)) [] pos)).
  { unfold neg_w; simpl. f_equal. pose proof (init_dual (e_cfg E)) as D. unfold tw_init, neg_world in D. simpl in D.
    apply (f_equal tw_ts) in D. simpl in D. symmetry. exact D. }
  rewrite Q, run_dual. destruct (run_body E A cb n (World (task_init (e_cfg E)) [] pos)) as [[r w'] ev]. simpl.
  unfold neg_history. rewrite !map_map. simpl. auto.
Qed.

Example C28_case : exists pop fit w', exec (c26_env c26_good) (default_numpy_init c26_cfg 4) (World (task_init c26_cfg) [] 0)
    = (Ret (pop, fit), w') /\ cfg_ok c26_cfg /\ length (w_h w') = 3 /\
  fit = [Fin 5; Fin 4; Fin 3; PInf].
Proof.
  do 3 eexists. split; [vm_compute; reflexivity|]. split; [|vm_compute; auto].
  split; [reflexivity|split; [reflexivity|repeat constructor]].
Qed.
Example C29_case : repair_ok (Env c26_cfg c26_good (fun _ _ => [Fin 9]) (fun _ => f0) (fun _ => 0)) /\
  fst (exec (Env c26_cfg c26_good (fun _ _ => [Fin 9]) (fun _ => f0) (fun _ => 0)) (ind_evaluate [Fin 70]) (World (task_init c26_cfg) [] 0))
  = Ret ([Fin 9], Fin 9).
Proof. split; [intros p x _; repeat constructor; right; auto|reflexivity]. Qed.
Example C58_case : exists x v, fst (fst (run_body (dual_env (c26_env c26_good)) (rs1 c26_cfg) silent 9
    (World (task_init (dual_cfg c26_cfg)) [] 0))) = Ret (x, v) /\ c_opt (dual_cfg c26_cfg) = Maximization /\ v = Fin (-3).
Proof. do 2 eexists. vm_compute. repeat split. Qed.

Print Assumptions C20_get_best. Print Assumptions C20_get_best_scalar. Print Assumptions C20_never_worse.
Print Assumptions C21_nan_refuted. Print Assumptions C21_nan_initial_refuted. Print Assumptions C22_protocol.
Print Assumptions C23_iterations. Print Assumptions C23_terminates. Print Assumptions C25_problem_exception.
Print Assumptions C25_callback_exception. Print Assumptions C25_report. Print Assumptions C26_bad_run_history_partial.
Print Assumptions C26_bad_run_refuted. Print Assumptions C26_main_thread_refuted. Print Assumptions C27_skip.
Print Assumptions C27_reaches_all. Print Assumptions C27_all_skipped. Print Assumptions C28_numpy_init.
Print Assumptions C28_individual_init. Print Assumptions C28_budget. Print Assumptions C28_min_budget.
Print Assumptions C29_evaluate. Print Assumptions C29_inside. Print Assumptions C30_copy_refuted.
Print Assumptions C30_copy_partial. Print Assumptions C58_run_duality.
