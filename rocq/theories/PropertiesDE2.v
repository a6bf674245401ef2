(** More theorems about the differential evolution variants (C59): halving, aging, lifetimes, several strategies. *)
From Coq Require Import ZArith Lia Bool List.
From Verif Require Import Num Task TaskSpec TaskProofs TaskProofs2 Prog Wp GetBest Run RunSpec RunProofs RunProofs2
  AlgoLib Fops AlgTac StepSpec StepLib Indiv IndivLib AlgDE DESpec AlgDEProofs AlgAging AlgPSO AlgSwarm AlgBasic PopLib AlgSwarmProofs AlgBasicProofs Repair B64 ExLib ExLib2.
Import ListNotations.

(** halving: member i of the new population is the strictly better of members i and i + n/2, the latter on a tie *)
Theorem C59_halve : forall E pop pop' wd wd',
  exec E (halve pop) wd = (Ret pop', wd') ->
  length pop' = length pop / 2 /\
  forall i, i < length pop / 2 -> exists a b, nth_error pop i = Some a /\ nth_error pop (i + length pop / 2) = Some b /\
    nth_error pop' i = Some (if fltb (snd a) (snd b) then a else b).
Proof.
  intros E pop pop' wd wd' Ex. set (m := length pop / 2). apply (tr_sound _ E _ (fun pop' _ => length pop' = m /\
    forall i, i < m -> exists a b, nth_error pop i = Some a /\ nth_error pop (i + m) = Some b /\ nth_error pop' i = Some (if fltb (snd a) (snd b) then a else b))) in Ex; auto.
  unfold halve. fold m. apply (w_mapM_pure _ _ _ _ (fun i c => exists a b, nth_error pop i = Some a /\ nth_error pop (i + m) = Some b /\
    c = (if fltb (snd a) (snd b) then a else b))).
  - intros i P _ HP. apply wp_bind. apply w_nthP_tr. intros a Ha. apply wp_bind. apply w_nthP_tr. intros b Hb. apply w_done. apply HP. exists a, b. auto.
  - intros cs Hc. assert (L := Forall2_len _ _ _ _ _ Hc). rewrite seq_length in L. split; auto. intros i Hi.
    destruct (nth_error cs i) as [c|] eqn:Ec; [|apply nth_error_None in Ec; lia].
    assert (Es : nth_error (seq 0 m) i = Some i). { rewrite (nth_error_nth' _ 0) by (rewrite seq_length; auto). rewrite seq_nth by auto. auto. }
    destruct (Forall2_nth _ _ _ _ _ _ _ _ Hc Es Ec) as (a & b & H1 & H2 & ->). exists a, b. auto.
Qed.
(** the population is halved in generation gr = max_evals // (p_max len(pop)) + rp when it has more than three members, and only then *)
Theorem C59_when_halved : forall E p_max rp pop wd m, let C := e_cfg E in c_max_evals C = LFin m -> (p_max * Z.of_nat (length pop) <> 0)%Z ->
  exec E (dynnp_post C p_max rp pop) wd =
  if (Z.of_nat (S (t_iters (w_ts wd))) =? m / (p_max * Z.of_nat (length pop)) + rp)%Z && (3 <? length pop) then exec E (halve pop) wd else (Ret pop, wd).
Proof.
  intros E p_max rp pop wd m C Hm Hd. unfold dynnp_post. rewrite exec_view. rewrite Hm. cbv zeta. apply Z.eqb_neq in Hd. rewrite Hd. cbn [v_iters].
  rewrite Nat2Z.inj_succ, <- Z.add_1_r. destruct (Z.eqb _ _ && _); reflexivity.
Qed.
(** several strategies: one crossover per strategy, repaired and evaluated; the first best is kept *)
Theorem C59_multi_mutations : forall F E p ss pop xb i c wd wd' d,
  0 < d -> Forall (fun m => length (fst m) = d) pop -> i < length pop -> length xb = d ->
  exec E (multi_mutations F p ss pop xb i) wd = (Ret c, wd') ->
  exists cand k, evaluated_all (map fst cand) (map snd cand) (log_of (c_opt (e_cfg E)) (w_h wd)) (log_of (c_opt (e_cfg E)) (w_h wd')) /\
    Forall2 (fun s m => exists x, crossed F s (de_f p) (de_cr p) (map fst pop) i xb x /\ repaired E x (fst m)) ss cand /\
    argmin (map snd cand) = Some k /\ nth_error cand k = Some c.
Proof.
  intros F E p ss pop xb i c wd wd' d Hd Hp Hi Hx Ex. set (l := log_of (c_opt (e_cfg E)) (w_h wd)).
  set (R := fun s (m : ind) => exists x, crossed F s (de_f p) (de_cr p) (map fst pop) i xb x /\ repaired E x (fst m)).
  apply (tr_sound _ E _ (fun c l' => exists cand k, evaluated_all (map fst cand) (map snd cand) l l' /\ Forall2 R ss cand /\
    argmin (map snd cand) = Some k /\ nth_error cand k = Some c)) in Ex; auto. fold l. unfold multi_mutations. apply wp_bind.
  assert (G : forall (Q : list ind -> elog -> Prop) l0, (forall cand l', evaluated_all (map fst cand) (map snd cand) l0 l' -> Forall2 R ss cand -> Q cand l') ->
    wp (K_tr E) (mapM (fun s => let* x := cross F s (map fst pop) i (de_f p) (de_cr p) xb in new_ind x) ss) Q l0).
  { clear Ex. induction ss as [|s ss IH]; intros Q l0 HQ; cbn [mapM].
    - apply w_done. apply HQ; auto. constructor.
    - apply wp_bind. apply wp_bind. apply (w_cross _ _ _ _ _ _ _ _ d); auto.
      { apply Forall_map. auto. } { rewrite map_length. auto. } intros x _ Hc.
      unfold new_ind, ind_evaluate. apply wp_bind. apply w_repair_tr. intros y Hy. apply wp_bind. apply w_eval_tr. intros f l2 He. apply w_done. apply wp_bind. apply IH.
      intros cand l' Ha HF. apply w_done. apply HQ; [simpl; econstructor; eauto|]. constructor; auto. exists x. auto. }
  apply G. intros cand l' Ha HF. destruct (argmin (map snd cand)) as [k|] eqn:Ek; [|exact I].
  apply w_nthP_tr. intros c0 Hc. exists cand, k. auto.
Qed.

(** the lifetimes: best <= mean <= worst fitness of the population *)
Theorem C59_lifetime : forall F p x_f avg x_gw x_gb,
  (ag_fun p = Proportional -> lifetime F p x_f avg x_gw x_gb =
     let r := if is_fin avg || is_nan avg then fadd F (ag_min p) (fdiv F (fmul F (ag_mu p) avg) x_f) else ag_max p in
     if fltb (ag_max p) r then ag_max p else r) /\
  (ag_fun p = Linear -> lifetime F p x_f avg x_gw x_gb =
     fadd F (ag_min p) (fdiv F (fmul F (fmul F (flit F 2 1) (ag_mu p)) (fsub F x_f x_gw)) (fsub F x_gb x_gw))) /\
  (ag_fun p = Bilinear -> fltb avg x_f = true -> lifetime F p x_f avg x_gw x_gb =
     fadd F (ag_min p) (fdiv F (fmul F (ag_mu p) (fsub F x_f x_gw)) (fsub F x_gb x_gw))) /\
  (ag_fun p = Bilinear -> fltb avg x_f = false -> lifetime F p x_f avg x_gw x_gb =
     fadd F (fmul F (flit F 1 2) (fadd F (ag_min p) (ag_max p))) (fdiv F (fmul F (ag_mu p) (fsub F x_f avg)) (fsub F x_gb avg))).
Proof.
  intros F p x_f avg x_gw x_gb. unfold lifetime, fminb. repeat split; intros H; rewrite H.
  - destruct avg; reflexivity.
  - reflexivity.
  - intros ->. reflexivity.
  - intros ->. reflexivity.
Qed.
(** a proportional lifetime never exceeds the maximum (unless it is nan) *)
Theorem C59_lifetime_cap : forall F p x_f avg x_gw x_gb, ag_fun p = Proportional ->
  fltb (ag_max p) (lifetime F p x_f avg x_gw x_gb) = false.
Proof.
  intros F p x_f avg x_gw x_gb H. unfold lifetime, fminb. rewrite H. cbv zeta.
  match goal with |- context [if ?b then _ else _] => destruct b eqn:Q end; [apply fltb_irrefl|exact Q].
Qed.

Lemma w_uniform_vec_tr : forall E lo hi (Q : vec -> elog -> Prop) l, (forall x, Q x l) -> wp (K_tr E) (uniform_vec lo hi) Q l.
Proof.
  intros E lo. induction lo as [|a lo IH]; intros [|b hi] Q l HQ; cbn [uniform_vec]; try (apply w_done; auto; fail).
  apply wp_bind. apply w_uniform. intros c _. apply wp_bind. apply IH. intros x. apply w_done. auto.
Qed.
Lemma w_repeat_rand_tr : forall E C n (Q : list ind -> elog -> Prop) l,
  (forall cs l', length cs = n -> evaluated_all (map fst cs) (map snd cs) l l' -> Q cs l') -> wp (K_tr E) (repeatM n (rand_ind C)) Q l.
Proof.
  intros E C n. induction n as [|n IH]; intros Q l HQ; cbn [repeatM].
  - apply w_done. apply HQ; auto. constructor.
  - apply wp_bind. unfold rand_ind at 1. apply wp_bind. apply w_uniform_vec_tr. intros x. unfold ind_evaluate. apply wp_bind. apply w_repair_tr. intros y _.
    apply wp_bind. apply w_eval_tr. intros f l1 He. apply w_done. apply wp_bind. apply IH. intros cs l' L Ha. apply w_done. apply HQ; [simpl; auto|].
    simpl. econstructor; eauto.
Qed.
(** aging: everyone gets one generation older; those whose age is beyond their rounded lifetime die;
    if nobody survives, a new random population of the initial size takes over *)
Theorem C59_aging_step : forall F E p pop pop' wd wd', let C := e_cfg E in
  exec E (aging F C p pop) wd = (Ret pop', wd') ->
  let fpop := map (fun i => snd (fst i)) pop in
  exists ib iw best worst lives,
    argmin fpop = Some ib /\ nth_error fpop ib = Some best /\ argmax fpop = Some iw /\ nth_error fpop iw = Some worst /\
    Forall2 (fun i n => let t := lifetime F p (snd (fst i)) (vmean F (filter is_fin fpop)) worst best in
                        is_fin t = true /\ n = fround t) pop lives /\
    let kept := map (fun a => (fst (fst a), S (snd (fst a)))) (filter (fun a => (Z.of_nat (S (snd (fst a))) <=? snd a)%Z) (combine pop lives)) in
    (kept <> [] -> pop' = kept /\ log_of (c_opt C) (w_h wd') = log_of (c_opt C) (w_h wd)) /\
    (kept = [] -> length pop' = de_n (ag_de p) /\ Forall (fun i => snd i = 0) pop' /\
       evaluated_all (map fst (map fst pop')) (map snd (map fst pop')) (log_of (c_opt C) (w_h wd)) (log_of (c_opt C) (w_h wd'))).
Proof.
  intros F E p pop pop' wd wd' C Ex. set (l := log_of (c_opt C) (w_h wd)). set (fpop := map (fun i : aind => snd (fst i)) pop).
  pose (kp := fun pop lives => map (fun a : aind * Z => (fst (fst a), S (snd (fst a)))) (filter (fun a => (Z.of_nat (S (snd (fst a))) <=? snd a)%Z) (combine pop lives))).
  pose (R := fun best worst (i : aind) n => let t := lifetime F p (snd (fst i)) (vmean F (filter is_fin fpop)) worst best in is_fin t = true /\ n = fround t).
  pose (S0 := fun (pop' : list aind) (l' : elog) => exists ib iw best worst lives,
    argmin fpop = Some ib /\ nth_error fpop ib = Some best /\ argmax fpop = Some iw /\ nth_error fpop iw = Some worst /\
    Forall2 (R best worst) pop lives /\ (kp pop lives <> [] -> pop' = kp pop lives /\ l' = l) /\
    (kp pop lives = [] -> length pop' = de_n (ag_de p) /\ Forall (fun i => snd i = 0) pop' /\ evaluated_all (map fst (map fst pop')) (map snd (map fst pop')) l l')).
  apply (tr_sound _ E _ S0 _ _ _) in Ex; [exact Ex|]. fold C. fold l. unfold aging. fold fpop. cbv zeta.
  destruct (argmin fpop) as [ib|] eqn:E1; [|exact I]. destruct (argmax fpop) as [iw|] eqn:E2; [|exact I].
  apply wp_bind. apply w_nthP_tr. intros best Hb. apply wp_bind. apply w_nthP_tr. intros worst Hw. apply wp_bind.
  assert (G : forall (ps : list aind) acc (Q : list aind -> elog -> Prop), (forall lives, Forall2 (R best worst) ps lives -> Q (acc ++ kp ps lives) l) ->
    wp (K_tr E) (foldM (fun acc i => let age := S (snd i) in
          let* life := lift (py_round (lifetime F p (snd (fst i)) (vmean F (filter is_fin fpop)) worst best)) in
          Done (if Z.leb (Z.of_nat age) life then acc ++ [(fst i, age)] else acc)) ps acc) Q l).
  { clear. induction ps as [|i ps IH]; intros acc Q HQ; cbn [foldM].
    - apply w_done. specialize (HQ [] (Forall2_nil _)). unfold kp in HQ. simpl in HQ. rewrite app_nil_r in HQ. exact HQ.
    - apply wp_bind. apply wp_bind. apply w_lift_tr. intros n Hn. apply w_done. apply IH. intros lives HF.
      assert (Hi : R best worst i n). { unfold R. unfold py_round in Hn. destruct (lifetime _ _ _ _ _ _); try discriminate. injection Hn as <-. auto. }
      specialize (HQ (n :: lives) (Forall2_cons _ _ Hi HF)). unfold kp in *. cbn [combine filter fst snd] in HQ.
      destruct (Z.leb _ n); cbn [map fst snd] in HQ; [rewrite <- app_assoc|]; exact HQ. }
  apply G. clear G. intros lives HF. cbn [app]. destruct (kp pop lives) as [|k ks] eqn:Ek.
  - apply wp_bind. apply (w_repeat_rand_tr E); intros new l' Ln Ha. apply w_done. exists ib, iw, best, worst, lives.
    split; auto. split; auto. split; auto. split; auto. split; auto. rewrite Ek. split; [congruence|]. intros _. rewrite map_length, map_age0. split; auto. split; auto.
    apply Forall_map. apply Forall_forall. auto.
  - apply w_done. exists ib, iw, best, worst, lives. split; auto. split; auto. split; auto. split; auto. split; auto. rewrite Ek. split; [auto|congruence].
Qed.

(** incrementing: the documented number of new random members of age 0 *)
Theorem C59_increment : forall F E p new wd wd', let C := e_cfg E in
  exec E (increment_population F C p) wd = (Ret new, wd') ->
  length new = Z.to_nat (Z.max 1 (Z.of_nat (de_n (ag_de p)) * fint F (fmul F (ag_delta p) (fabs F (fsin F (fnat F (S (t_iters (w_ts wd))))))))) /\
  Forall (fun i => snd i = 0) new /\
  evaluated_all (map fst (map fst new)) (map snd (map fst new)) (log_of (c_opt C) (w_h wd)) (log_of (c_opt C) (w_h wd')).
Proof.
  intros F E p new wd wd' C Ex. unfold increment_population in Ex. rewrite exec_view in Ex. cbn [v_iters] in Ex. fold (delta_pop F p (fsin F) (S (t_iters (w_ts wd)))).
  set (n := delta_pop _ _ _ _) in *. apply (tr_sound _ E _ (fun new l' => length new = n /\ Forall (fun i : aind => snd i = 0) new /\
    evaluated_all (map fst (map fst new)) (map snd (map fst new)) (log_of (c_opt C) (w_h wd)) l') _ _ _) in Ex; [exact Ex|]. fold C.
  apply wp_bind. apply w_repeat_rand_tr. intros cs l' L Ha. apply w_done. rewrite map_length, map_age0. split; auto. split; auto.
  apply Forall_map. apply Forall_forall. auto.
Qed.
(** decrementing: d distinct members are drawn, and each of them is dropped when its draw is below omega *)
Theorem C59_decrement : forall F E p pop pop' wd wd',
  exec E (decrement_population F p pop) wd = (Ret pop', wd') ->
  let d := Z.to_nat (Z.max 1 (Z.of_nat (de_n (ag_de p)) * fint F (fmul F (ag_delta p) (fabs F (fcos F (fnat F (S (t_iters (w_ts wd))))))))) in
  log_of (c_opt (e_cfg E)) (w_h wd') = log_of (c_opt (e_cfg E)) (w_h wd) /\
  (length pop <= d -> pop' = pop) /\
  (d < length pop -> exists ni us, length ni = d /\ NoDup ni /\ (forall k, In k ni -> k < length pop) /\
     length us = length pop /\ Forall in_unit us /\
     pop' = map snd (filter (fun a => negb (existsb (Nat.eqb (fst (fst a))) ni) || fleb (ag_omega p) (snd (fst a))) (combine (combine (seq 0 (length pop)) us) pop))).
Proof.
  intros F E p pop pop' wd wd' Ex. unfold decrement_population in Ex. rewrite exec_view in Ex. cbn [v_iters] in Ex.
  fold (delta_pop F p (fcos F) (S (t_iters (w_ts wd)))). set (d := delta_pop _ _ _ _) in *. cbv zeta in *. set (l := log_of (c_opt (e_cfg E)) (w_h wd)).
  apply (tr_sound _ E _ (fun pop' l' => l' = l /\ (length pop <= d -> pop' = pop) /\
  (d < length pop -> exists ni us, length ni = d /\ NoDup ni /\ (forall k, In k ni -> k < length pop) /\
     length us = length pop /\ Forall in_unit us /\
     pop' = map snd (filter (fun a => negb (existsb (Nat.eqb (fst (fst a))) ni) || fleb (ag_omega p) (snd (fst a))) (combine (combine (seq 0 (length pop)) us) pop)))) _ _ _) in Ex; [exact Ex|].
  fold l. destruct (length pop <=? d) eqn:Ed.
  - apply Nat.leb_le in Ed. apply w_done. split; auto. split; auto. lia.
  - apply Nat.leb_gt in Ed. apply wp_bind. apply w_choice; [lia|]. intros ni N1 N2 N3.
    assert (G : forall (ps : list aind) k acc (Q : list aind -> elog -> Prop), (forall us, length us = length ps -> Forall in_unit us ->
        Q (acc ++ map snd (filter (fun a => negb (existsb (Nat.eqb (fst (fst a))) ni) || fleb (ag_omega p) (snd (fst a))) (combine (combine (seq k (length ps)) us) ps))) l) ->
      wp (K_tr E) (foldM (fun acc ie => if existsb (Nat.eqb (fst ie)) ni
             then let* u := random in Done (if fleb (ag_omega p) u then acc ++ [snd ie] else acc)
             else Done (acc ++ [snd ie])) (combine (seq k (length ps)) ps) acc) Q l).
    { clear. induction ps as [|i ps IH]; intros k acc Q HQ; cbn [foldM length seq combine].
      - apply w_done. specialize (HQ [] eq_refl (Forall_nil _)). simpl in HQ. rewrite app_nil_r in HQ. exact HQ.
      - apply wp_bind. cbn [fst snd]. destruct (existsb (Nat.eqb k) ni) eqn:Ek.
        + apply wp_bind. apply w_random. intros u U1 U2. apply w_done. apply IH. intros us L HF.
          specialize (HQ (u :: us)). cbn [length seq combine filter fst snd] in HQ. rewrite Ek in HQ. cbn [negb orb] in HQ.
          specialize (HQ (f_equal S L) (Forall_cons _ (conj U1 U2) HF)). destruct (fleb (ag_omega p) u); cbn [map snd] in HQ; [rewrite <- app_assoc|]; exact HQ.
        + apply w_done. apply IH. intros us L HF. specialize (HQ (f0 :: us)). cbn [length seq combine filter fst snd] in HQ. rewrite Ek in HQ. cbn [negb orb] in HQ.
          assert (U : in_unit f0) by (split; vm_compute; reflexivity).
          specialize (HQ (f_equal S L) (Forall_cons _ U HF)). cbn [map snd] in HQ. rewrite <- app_assoc. exact HQ. }
    apply G. intros us L HF. split; auto. split; [lia|]. intros _. exists ni, us. split; auto.
Qed.

(** ** a concrete case of everything *)
Module ExDE2.
  Definition C := Cfg Minimization 2 [N' 0; N' 0] [N' 1; N' 1] (LFin 24) (LFin 3) NInf.
  Definition E := exenv C lin.
  Definition p s := DEPar 6 (q 3 4) (q 1 2) s.
  Definition ag s := AgingPar (p Rand1) (q 0 1) (q 4 1) (q 2 1) (q 1 2) (q 1 4) s.
  Lemma C_ok : cfg_ok C.
  Proof. split; [reflexivity|]. split; [reflexivity|]. repeat constructor. Qed.
  Example hyps : forall s a, cfg_ok C /\ no_nan (e_prob E) /\ repair_ok E /\ 0 < c_dim C /\ 0 < de_n (p s) /\ 0 < de_n (ag_de (ag a)).
  Proof. intros s a. split; [exact C_ok|]. split; [apply lin_no_nan|]. split; [exact (clip_ok C lin fl8 in7 C_ok)|]. simpl. lia. Qed.
  Example rand1_trace : trace E (de fxx C (p Rand1)) 9 =
    (Ret ([40960; 8192], 57344), [[8192; 40960]; [24576; 40960]; [57344; 57344]; [40960; 24576]; [40960;
    8192]; [57344; 8192]; [8192; 65536]; [20480; 65536]; [57344; 65536]; [0; 65536]; [0; 65536]; [57344;
    65536]; [32768; 65536]; [24576; 65536]; [57344; 65536]; [0; 65536]; [40960; 65536]; [0; 65536]; [32768;
    65536]; [24576; 65536]; [0; 65536]; [40960; 65536]; [40960; 65536]; [0; 65536]])%Z.
  Proof. vm_compute. reflexivity. Qed.
  Example best1_trace : trace E (de fxx C (p Best1)) 9 =
    (Ret ([0; 0], 0), [[8192; 40960]; [24576; 40960]; [57344; 57344]; [40960; 24576]; [40960; 8192]; [57344;
    8192]; [65536; 20480]; [53248; 45056]; [57344; 0]; [4096; 32768]; [4096; 8192]; [65536; 8192]; [44032; 0];
    [24576; 0]; [19456; 32768]; [0; 0]; [0; 32768]; [0; 38912]; [0; 0]; [43008; 0]; [57344; 0]; [0; 0]; [0;
    0]; [29952; 8192]])%Z.
  Proof. vm_compute. reflexivity. Qed.
  Example rand2_trace : trace E (de fxx C (p Rand2)) 9 =
    (Ret ([18432; 0], 18432), [[8192; 40960]; [24576; 40960]; [57344; 57344]; [40960; 24576]; [40960; 8192];
    [57344; 8192]; [32768; 65536]; [0; 12288]; [8192; 53248]; [0; 28672]; [65536; 8192]; [32768; 8192]; [8192;
    54272]; [0; 65536]; [12288; 53248]; [0; 10240]; [0; 18432]; [40960; 8192]; [18432; 0]; [0; 29184]; [8192;
    30720]; [0; 65536]; [26624; 18432]; [32768; 0]])%Z.
  Proof. vm_compute. reflexivity. Qed.
  Example best2_trace : trace E (de fxx C (p Best2)) 9 =
    (Ret ([0; 0], 0), [[8192; 40960]; [24576; 40960]; [57344; 57344]; [40960; 24576]; [40960; 8192]; [57344;
    8192]; [8192; 8192]; [28672; 20480]; [65536; 0]; [0; 20480]; [28672; 45056]; [57344; 0]; [8192; 2048];
    [28672; 0]; [26624; 0]; [63488; 0]; [0; 29696]; [11264; 0]; [8192; 0]; [28672; 7680]; [26624; 0]; [0; 0];
    [33536; 0]; [0; 0]])%Z.
  Proof. vm_compute. reflexivity. Qed.
  Example c2r1_trace : trace E (de fxx C (p Curr2Rand1)) 9 =
    (Ret ([8192; 256], 8704), [[8192; 40960]; [24576; 40960]; [57344; 57344]; [40960; 24576]; [40960; 8192];
    [57344; 8192]; [8192; 40960]; [12288; 53248]; [65536; 45056]; [0; 36864]; [28672; 45056]; [57344; 0];
    [8192; 65536]; [24576; 16384]; [65536; 41984]; [55296; 33792]; [0; 35840]; [63488; 27648]; [8192; 256];
    [24576; 38656]; [65536; 0]; [0; 29952]; [65536; 0]; [2048; 5376]])%Z.
  Proof. vm_compute. reflexivity. Qed.
  Example c2b1_trace : trace E (de fxx C (p Curr2Best1)) 9 =
    (Ret ([0; 0], 0), [[8192; 40960]; [24576; 40960]; [57344; 57344]; [40960; 24576]; [40960; 8192]; [57344;
    8192]; [8192; 28672]; [0; 28672]; [57344; 57344]; [16384; 24576]; [16384; 8192]; [57344; 8192]; [0; 7168];
    [0; 7168]; [57344; 57344]; [0; 24576]; [16384; 8192]; [63488; 8192]; [0; 0]; [0; 0]; [14336; 56576]; [0;
    23808]; [16384; 7424]; [45056; 7424]])%Z.
  Proof. vm_compute. reflexivity. Qed.
  Example ms_trace : trace E (ms_de fxx C (p Rand1) [Best1; Rand1]) 9 =
    (Ret ([4096; 0], 4096), [[8192; 40960]; [24576; 40960]; [57344; 57344]; [40960; 24576]; [40960; 8192];
    [57344; 8192]; [65536; 20480]; [8192; 45056]; [53248; 45056]; [24576; 20480]; [57344; 0]; [20480; 57344];
    [4096; 32768]; [32768; 24576]; [4096; 0]; [20480; 8192]; [65536; 8192]; [65536; 8192]; [44032; 40960];
    [32768; 9216]; [40960; 0]; [24576; 0]; [19456; 15360]; [57344; 0]])%Z.
  Proof. vm_compute. reflexivity. Qed.
  Example dynnp_trace : trace E (dynnp_de fxx C (p Rand1) 2 0) 9 =
    (Ret ([40960; 8192], 57344), [[8192; 40960]; [24576; 40960]; [57344; 57344]; [40960; 24576]; [40960;
    8192]; [57344; 8192]; [8192; 65536]; [20480; 65536]; [57344; 65536]; [0; 65536]; [0; 65536]; [57344;
    65536]; [32768; 65536]; [24576; 65536]; [57344; 65536]; [0; 65536]; [40960; 65536]; [0; 65536]; [28672;
    24576]; [40960; 24576]; [28672; 24576]])%Z.
  Proof. vm_compute. reflexivity. Qed.
  Example dynnp_ms_trace : trace E (dynnp_ms_de fxx C (p Rand1) [Best1; Rand1] 4 0) 9 =
    (Ret ([4096; 0], 4096), [[8192; 40960]; [24576; 40960]; [57344; 57344]; [40960; 24576]; [40960; 8192];
    [57344; 8192]; [65536; 20480]; [8192; 45056]; [53248; 45056]; [24576; 20480]; [57344; 0]; [20480; 57344];
    [4096; 32768]; [32768; 24576]; [4096; 0]; [20480; 8192]; [65536; 8192]; [65536; 8192]; [0; 32768]; [0;
    32768]; [0; 24576]; [4096; 24576]; [4096; 0]; [57344; 32768]])%Z.
  Proof. vm_compute. reflexivity. Qed.
  Example prop_trace : trace E (aging_de fxx C (ag Proportional)) 9 =
    (Raise EValue, [[8192; 40960]; [24576; 40960]; [57344; 57344]; [40960; 24576]; [40960; 8192]; [57344;
    8192]; [8192; 65536]; [20480; 65536]; [57344; 65536]; [0; 65536]; [0; 65536]; [57344; 65536]; [40960;
    8192]; [65536; 0]; [24576; 0]; [65536; 8192]; [65536; 8192]; [57344; 8192]; [53248; 8192]; [24576; 40960];
    [55296; 0]; [65536; 0]; [65536; 0]; [65536; 0]])%Z.
  Proof. vm_compute. reflexivity. Qed.
  Example linear_trace : trace E (aging_de fxx C (ag Linear)) 9 =
    (Raise EValue, [[8192; 40960]; [24576; 40960]; [57344; 57344]; [40960; 24576]; [40960; 8192]; [57344;
    8192]; [8192; 65536]; [20480; 65536]; [57344; 65536]; [0; 65536]; [0; 65536]; [57344; 65536]; [40960;
    8192]; [24576; 40960]; [8192; 28672]; [20480; 16384]; [20480; 8192]; [20480; 28672]; [20480; 8192];
    [40960; 24576]; [20480; 14336]; [20480; 23552]; [20480; 31744]; [11264; 31744]])%Z.
  Proof. vm_compute. reflexivity. Qed.
  Example bilinear_trace : trace E (aging_de fxx C (ag Bilinear)) 9 =
    (Raise EValue, [[8192; 40960]; [24576; 40960]; [57344; 57344]; [40960; 24576]; [40960; 8192]; [57344;
    8192]; [8192; 65536]; [20480; 65536]; [57344; 65536]; [0; 65536]; [0; 65536]; [57344; 65536]; [40960;
    8192]; [24576; 40960]; [8192; 28672]; [20480; 16384]; [20480; 8192]; [20480; 28672]; [20480; 8192];
    [40960; 24576]; [20480; 14336]; [20480; 23552]; [20480; 31744]; [11264; 31744]])%Z.
  Proof. vm_compute. reflexivity. Qed.
End ExDE2.

(** AgingNpDE raises ValueError (round of nan, de.py:753) in binary64 arithmetic with the default lifetimes (0, 12)
    and the default [proportional] as soon as every fitness is 0: 0 * mu / 0 *)
Definition zero_prob : problem := fun _ _ => Ret f0.
Theorem C59_aging_refuted : exists E p, let C := e_cfg E in
  cfg_ok C /\ 0 < c_dim C /\ no_nan (e_prob E) /\ repair_ok E /\ 0 < de_n (ag_de p) /\ ag_fun p = Proportional /\
  (exists w ev, run_body E (aging_de b64ops C p) (fun _ => None) 9 (World (task_init C) [] 0) = (Raise EValue, w, ev)) /\
  ~ best_run E (aging_de b64ops C p).
Proof.
  exists (exenv ExDE2.C zero_prob), (AgingPar (DEPar 5 (b64_lit 1 1) (b64_lit 8 10) Rand1) (b64_lit 0 1) (b64_lit 12 1) (b64_lit 6 1) (b64_lit 3 10) (b64_lit 3 10) Proportional).
  split; [exact ExDE2.C_ok|]. split; [simpl; lia|]. split; [intros h x v H; injection H as <-; vm_compute; discriminate|].
  split; [exact (clip_ok ExDE2.C zero_prob fl8 in7 ExDE2.C_ok)|]. split; [simpl; lia|]. split; [reflexivity|].
  apply (run_raises (fun _ => False)); [vm_compute; reflexivity|discriminate|exact (fun x => x)].
Qed.
Print Assumptions C59_halve. Print Assumptions C59_when_halved. Print Assumptions C59_multi_mutations. Print Assumptions C59_lifetime.
Print Assumptions C59_lifetime_cap. Print Assumptions C59_aging_step. Print Assumptions C59_increment. Print Assumptions C59_decrement.
Print Assumptions C59_aging_refuted.
