(** Proofs about AlgBat.v. *)
From Coq Require Import ZArith Lia Bool List.
From Verif Require Import Num Task TaskSpec TaskProofs TaskProofs2 Prog Wp GetBest Run RunSpec RunProofs RunProofs2
  AlgoLib Fops AlgTac StepSpec StepLib AlgDE DESpec AlgDEProofs AlgBat.
Import ListNotations.

Record BatOk (C : cfg) (n : nat) {T} (Tok : T -> Prop) (g0 : list num) (s : bats T) (l : elog) : Prop := {
  bk_pop : length (b_pop s) = n; bk_fit : length (b_fit s) = n; bk_v : length (b_v s) = n; bk_dv : dims (c_dim C) (b_v s);
  bk_in : Forall (inside C) (b_pop s); bk_seen : Forall2 (Seen l) (b_pop s) (b_fit s);
  bk_xb : length (b_xb s) = c_dim C; bk_good : Good l (b_xb s) (b_fxb s); bk_t : Tok (b_t s);
  bk_down : down (b_fit s) g0
}.

(** what the parts of bat_step must satisfy in a context K *)
Record parts_ok (C : cfg) (K : wctx) (n : nat) {T} (Tok : T -> Prop) (adapt : T -> nat -> prog T) (freq : prog num)
  (local : T -> nat -> num -> prog bool) (ls : list vec -> vec -> T -> nat -> prog vec)
  (accept : T -> nat -> num -> prog bool) (upd : T -> nat -> prog T) : Prop := {
  po_adapt : forall t i l (Q : T -> elog -> Prop), Tok t -> i < n -> (forall t', Tok t' -> Q t' l) -> wp K (adapt t i) Q l;
  po_freq : forall l (Q : num -> elog -> Prop), (forall v, Q v l) -> wp K freq Q l;
  po_local : forall t i u l (Q : bool -> elog -> Prop), Tok t -> i < n -> (forall b, Q b l) -> wp K (local t i u) Q l;
  po_ls : forall pop xb t i l (Q : vec -> elog -> Prop), length pop = n -> Forall (inside C) pop -> length xb = c_dim C ->
    Tok t -> i < n -> (forall y, inside C y -> Q y l) -> wp K (ls pop xb t i) Q l;
  po_accept : forall t i u l (Q : bool -> elog -> Prop), Tok t -> i < n -> (forall b, Q b l) -> wp K (accept t i u) Q l;
  po_upd : forall t i l (Q : T -> elog -> Prop), Tok t -> i < n -> (forall t', Tok t' -> Q t' l) -> wp K (upd t i) Q l
}.

Lemma w_bat_step : forall C X F n T (Tok : T -> Prop) adapt freq local ls accept upd g0 s i l, cfg_ok C ->
  parts_ok C (KBX C X) n Tok adapt freq local ls accept upd -> i < n -> BatOk C n Tok g0 s l ->
  wp (KBX C X) (bat_step F adapt freq local ls accept upd s i) (fun s' l' => BatOk C n Tok g0 s' l') l.
Proof.
  intros C X F n T Tok adapt freq local ls accept updf g0 s i l HC HP Hi [B1 B2 B3 B4 B5 B6 B7 B8 B9 B10].
  assert (D : dims (c_dim C) (b_pop s)) by (apply dims_inside; auto).
  unfold bat_step. apply wp_bind. apply (po_adapt _ _ _ _ _ _ _ _ _ _ HP); auto. intros t Ht.
  apply wp_bind. apply (po_freq _ _ _ _ _ _ _ _ _ _ HP). intros fr.
  apply wp_bind. apply w_nthP; [lia|]. intros xi Exi. apply wp_bind. apply w_nthP; [lia|]. intros vi Evi. cbv zeta.
  assert (Lx : length xi = c_dim C) by dnth. assert (Lv : length vi = c_dim C) by dnth.
  set (v' := vadd F vi (vscaler F (vsub F xi (b_xb s)) fr)). assert (Lv' : length v' = c_dim C) by (unfold v'; dl).
  apply wp_bind. apply w_setP; [lia|]. apply wp_bind. apply w_random. intros u _ _.
  apply wp_bind. apply (po_local _ _ _ _ _ _ _ _ _ _ HP); auto. intros loc. apply wp_bind.
  assert (G : forall y, inside C y -> wp (KBX C X)
    (let* f := eval y in let* fi := nthP (b_fit s) i in
     let* acc := (if fleb f fi then let* u' := random in accept t i u' else Done false) in
     let* pop := (if acc : bool then setP (b_pop s) i y else Done (b_pop s)) in
     let* fit := (if acc : bool then setP (b_fit s) i f else Done (b_fit s)) in
     if fleb f (b_fxb s) then let* t' := updf t i in Done (Bats pop fit y f (upd (b_v s) i v') t')
     else Done (Bats pop fit (b_xb s) (b_fxb s) (upd (b_v s) i v') t)) (fun s' l' => BatOk C n Tok g0 s' l') l).
  2:{ destruct loc.
      - apply (po_ls _ _ _ _ _ _ _ _ _ _ HP); auto.
      - apply w_repair; [dl|]. auto. }
  intros y Hy. assert (Ly : length y = c_dim C) by (apply inside_len; auto).
  apply wp_bind. apply w_eval; auto. intros f l1 He. assert (Hx := Evald_ext _ _ _ _ He).
  apply wp_bind. apply w_nthP; [lia|]. intros fi Efi.
  assert (S1 : Forall2 (Seen l1) (b_pop s) (b_fit s)) by (eapply Seen2_ext; eauto).
  (* the accepted and the rejected population *)
  assert (R : forall pop fit, (pop = b_pop s /\ fit = b_fit s) \/ (pop = upd (b_pop s) i y /\ fit = upd (b_fit s) i f /\ fleb f fi = true) ->
    length pop = n /\ length fit = n /\ Forall (inside C) pop /\ Forall2 (Seen l1) pop fit /\ down fit g0).
  { intros pop fit [[-> ->]|(-> & -> & Hf)]; [auto 10|]. rewrite !upd_length. split; auto. split; auto. split; [apply Forall_upd; auto|].
    split; [apply Forall2_upd; auto; eapply Evald_seen; eauto|]. eapply down_upd; eauto. }
  assert (T2 : forall pop fit, length pop = n /\ length fit = n /\ Forall (inside C) pop /\ Forall2 (Seen l1) pop fit /\ down fit g0 ->
    wp (KBX C X) (if fleb f (b_fxb s) then let* t' := updf t i in Done (Bats pop fit y f (upd (b_v s) i v') t')
     else Done (Bats pop fit (b_xb s) (b_fxb s) (upd (b_v s) i v') t)) (fun s' l' => BatOk C n Tok g0 s' l') l1).
  { intros pop fit (P1 & P2 & P3 & P4 & P5). destruct (fleb f (b_fxb s)) eqn:Ef.
    - apply wp_bind. apply (po_upd _ _ _ _ _ _ _ _ _ _ HP); auto. intros t' Ht'. apply w_done.
      constructor; cbn [b_pop b_fit b_xb b_fxb b_v b_t]; auto; [rewrite upd_length; auto|apply dims_upd; auto|].
      eapply Good_take; eauto.
    - apply w_done. constructor; cbn [b_pop b_fit b_xb b_fxb b_v b_t]; auto; [rewrite upd_length; auto|apply dims_upd; auto|].
      eapply Good_keep_le; eauto. }
  apply wp_bind. destruct (fleb f fi) eqn:Ef.
  - apply wp_bind. apply w_random. intros u' _ _. apply (po_accept _ _ _ _ _ _ _ _ _ _ HP); auto. intros [].
    + apply wp_bind. apply w_setP; [lia|]. apply wp_bind. apply w_setP; [lia|]. apply T2. apply R. right; auto.
    + apply wp_bind. apply w_done. apply wp_bind. apply w_done. apply T2. apply R. left; auto.
  - apply w_done. apply wp_bind. apply w_done. apply wp_bind. apply w_done. apply T2. apply R. left; auto.
Qed.

(** the invariant between iterations *)
Definition BatInv (C : cfg) (n : nat) {T} (Tok : T -> Prop) (pop : list vec) (fit : list num) (xb : vec) (fxb : num)
  (par : list vec * T) (l : elog) : Prop :=
  exists g0, BatOk C n Tok g0 (Bats pop fit xb fxb (fst par) (snd par)) l.

Lemma BatOk_restart : forall C n T (Tok : T -> Prop) g0 s l, BatOk C n Tok g0 s l -> BatOk C n Tok (b_fit s) s l.
Proof.
  intros C n T Tok g0 s l [B1 B2 B3 B4 B5 B6 B7 B8 B9 B10]. constructor; auto. apply down_refl.
  eapply Seen2_not_nan; [|exact B6]. apply (Good_Cov l (b_xb s) (b_fxb s) []); auto.
Qed.

Lemma w_bat_iter : forall C X F n T (Tok : T -> Prop) adapt freq local ls accept upd pop fit xb fxb vs t l, cfg_ok C ->
  parts_ok C (KBX C X) n Tok adapt freq local ls accept upd ->
  (exists t0, BatInv C n Tok pop fit xb fxb (vs, t0) l) -> Tok t ->
  wp (KBX C X) (bat_iter n (bat_step F adapt freq local ls accept upd) pop fit xb fxb (vs, t))
    (fun a l' => let '(pop', fit', xb', fxb', par') := a in
       BatInv C n Tok pop' fit' xb' fxb' par' l' /\ no_worse_fit (fit, xb, fxb) (fit', xb', fxb')) l.
Proof.
  intros C X F n T Tok adapt freq local ls accept updf pop fit xb fxb vs t l HC HP (t0 & g0 & HB) Ht.
  unfold bat_iter. apply wp_bind. eapply wp_conseq0.
  - apply (wp_for_range _ _ n _ (fun _ s l' => BatOk C n Tok fit s l')).
    + apply BatOk_restart in HB. destruct HB as [B1 B2 B3 B4 B5 B6 B7 B8 B9 B10]. constructor; auto.
    + intros i s' l' Hi Hs. apply w_bat_step; auto.
  - intros s' l' Hs. apply w_done. split; [|apply (bk_down _ _ _ _ _ _ Hs)].
    exists fit. destruct s'. exact Hs.
Qed.

Lemma bat_init_ok : forall C X n T (Tok : T -> Prop) t it, cfg_ok C -> 0 < n -> Tok t ->
  init_c (KBX C X) (Algo (list vec) (list vec * T) (fun pop => pop) (bat_init C n t) it) (BatInv C n Tok).
Proof.
  intros C X n T Tok t it HC Hn Ht. unfold init_c. cbn [a_init a_coords]. unfold bat_init. apply wp_bind.
  apply w_default_numpy_init; auto. intros pop fit l Hl Hin He. apply w_done.
  apply (w_get_best0 _ l); auto. { destruct pop; simpl in *; [lia|congruence]. }
  intros x f HG Hx. cbn [fst snd]. exists fit. constructor; cbn [b_pop b_fit b_xb b_fxb b_v b_t fst snd]; auto.
  - apply Evals_len in He. lia.
  - apply repeat_length.
  - apply dims_repeat. apply repeat_length.
  - eapply Evals_seen; eauto.
  - apply inside_len; auto. rewrite Forall_forall in Hin. auto.
  - apply down_refl. eapply Evals_nan; eauto.
Qed.

(** ** The instances *)
Ltac wdone := match goal with |- wp _ (Done _) _ _ => apply w_done; auto end.
Section Inst.
Variables (C : cfg) (X : exn -> Prop) (F : fops).
Hypothesis HC : cfg_ok C.

Lemma w_frequency : forall K fmin fmax l (Q : num -> elog -> Prop), (forall v, Q v l) -> wp K (frequency F fmin fmax) Q l.
Proof. intros K fmin fmax l Q HQ. unfold frequency. apply wp_bind. apply w_random. intros r _ _. apply w_done; auto. Qed.

Lemma w_cross_repair : forall s pop i w cr xb n l (Q : vec -> elog -> Prop), 0 < c_dim C -> length pop = n -> Forall (inside C) pop ->
  length xb = c_dim C -> i < n -> (forall y, inside C y -> Q y l) ->
  wp (KBX C X) (let* x := cross F s pop i w cr xb in repair x) Q l.
Proof.
  intros s pop i w cr xb n l Q Hd H1 H2 H3 H4 HQ. apply wp_bind.
  apply (w_cross _ F _ _ _ _ _ _ (c_dim C)); auto; [apply (dims_inside C pop HC H2)|lia|].
  intros x Hx _. apply w_repair; auto.
Qed.

Lemma ba_parts : forall n fmin fmax rate, parts_ok C (KBX C X) n (fun _ : num => True) (fun t _ => Done t) (frequency F fmin fmax)
  (fun _ _ u => Done (fltb u rate)) (ba_local F C) (fun t _ u => Done (fltb t u)) (fun t _ => Done t).
Proof.
  intros n fmin fmax rate. constructor; intros; try wdone.
  - apply w_frequency; auto.
  - unfold ba_local. apply wp_bind. apply w_rnd_f_vec. intros z Hz. apply w_repair; auto. dl.
Qed.
Lemma hba_parts : forall n fmin fmax rate s w cr, 0 < c_dim C -> uses_best_b s = true \/ X EType ->
  parts_ok C (KBX C X) n (fun _ : num => True) (fun t _ => Done t) (frequency F fmin fmax)
  (fun _ _ u => Done (fltb u rate)) (hba_local F s w cr) (fun t _ u => Done (fltb t u)) (fun t _ => Done t).
Proof.
  intros n fmin fmax rate s w cr Hd Hs. constructor; intros; try wdone.
  - apply w_frequency; auto.
  - unfold hba_local. destruct (uses_best_b s).
    + eapply w_cross_repair; eauto.
    + destruct Hs as [Hs|Hs]; [discriminate|]. simpl. auto.
Qed.
Lemma aba_local_ok : forall eps best a l (Q : vec -> elog -> Prop), length best = c_dim C -> (forall y, inside C y -> Q y l) ->
  wp (KBX C X) (aba_local F C eps best a) Q l.
Proof. intros. unfold aba_local. apply wp_bind. apply w_rnd_f_vec. intros z Hz. apply w_repair; auto. dl. Qed.
Lemma aba_parts : forall p, parts_ok C (KBX C X) (aba_n p) (fun t : list num => length t = aba_n p) (fun t _ => Done t)
  (frequency F (aba_fmin p) (aba_fmax p)) (fun _ _ u => Done (fltb (aba_pulse p) u))
  (fun _ best t i => let* a := nthP t i in aba_local F C (aba_eps p) best a)
  (fun t i u => let* a := nthP t i in Done (fltb u a)) (fun t i => let* a := nthP t i in setP t i (aba_update F p a)).
Proof.
  intros p. constructor; intros; try wdone.
  - apply w_frequency; auto.
  - apply wp_bind. apply w_nthP; [lia|]. intros a _. apply aba_local_ok; auto.
  - apply wp_bind. apply w_nthP; [lia|]. intros a _. apply w_done; auto.
  - apply wp_bind. apply w_nthP; [lia|]. intros a _. apply w_setP; [lia|]. apply H1. rewrite upd_length; auto.
Qed.
Definition two_len (n : nat) (t : list num * list num) : Prop := length (fst t) = n /\ length (snd t) = n.
Lemma w_self_adapt1 : forall K tao lo hi old l (Q : num -> elog -> Prop), (forall v, Q v l) -> wp K (self_adapt1 F tao lo hi old) Q l.
Proof.
  intros K tao lo hi old l Q HQ. unfold self_adapt1. apply wp_bind. apply w_random. intros c _ _. destruct (fltb c tao).
  - apply wp_bind. apply w_random. intros r _ _. apply w_done; auto.
  - apply w_done; auto.
Qed.
Lemma saba_parts : forall p ls n, n = aba_n (sb_aba p) ->
  (forall pop xb a i l (Q : vec -> elog -> Prop), length pop = n -> Forall (inside C) pop -> length xb = c_dim C -> i < n ->
     (forall y, inside C y -> Q y l) -> wp (KBX C X) (ls pop xb a i) Q l) ->
  parts_ok C (KBX C X) n (two_len n) (self_adapt F p) (frequency F (aba_fmin (sb_aba p)) (aba_fmax (sb_aba p)))
    (fun t i u => let* r := nthP (snd t) i in Done (fltb r u))
    (fun pop best t i => let* a := nthP (fst t) i in ls pop best a i)
    (fun t i u => let* a := nthP (fst t) i in Done (fltb u (fdiv F (fsub F (sb_lmin p) a) (aba_loud (sb_aba p)))))
    (fun t _ => Done t).
Proof.
  intros p ls n Hn Hls. constructor; intros.
  - destruct H as [H H']. unfold self_adapt. apply wp_bind. apply w_nthP; [lia|]. intros a _. apply wp_bind. apply w_nthP; [lia|]. intros r _.
    apply wp_bind. apply w_self_adapt1. intros a'. apply wp_bind. apply w_self_adapt1. intros r'.
    apply wp_bind. apply w_setP; [lia|]. apply wp_bind. apply w_setP; [lia|]. apply w_done. apply H1. split; simpl; rewrite upd_length; auto.
  - apply w_frequency; auto.
  - destruct H as [H H']. apply wp_bind. apply w_nthP; [lia|]. intros a _. apply w_done; auto.
  - destruct H2 as [H2 H2']. apply wp_bind. apply w_nthP; [lia|]. intros a _. apply Hls; auto.
  - destruct H as [H H']. apply wp_bind. apply w_nthP; [lia|]. intros a _. apply w_done; auto.
  - apply w_done; auto.
Qed.
Lemma plba_parts : forall n, 0 < c_dim C -> parts_ok C (KBX C X) n (fun _ : unit => True) (fun t _ => Done t) (plba_freq F C n)
  (fun _ _ u => Done (fltb (flit F 1 10) u)) (fun _ best _ _ => plba_local F C best) (fun _ _ u => Done (fltb u (flit F 9 10))) (fun t _ => Done t).
Proof.
  intros n Hd. destruct HC as (L1 & L2 & _). constructor; intros; try wdone.
  - unfold plba_freq. apply wp_bind. apply w_nthP; [lia|]. intros a _. apply wp_bind. apply w_nthP; [lia|]. intros b _.
    apply wp_bind. apply w_rnd_f. intros z. apply w_done; auto.
  - unfold plba_local. apply wp_bind. apply w_rnd_f_vec. intros z Hz. apply w_repair; auto. dl.
Qed.
End Inst.

(** what is proved about all of them *)
Definition bat_like (X : exn -> Prop) (n : nat) (E : env) (A : algo) : Prop :=
  best_run_x X E A /\ sizes_ok (fun k => k = n) E A /\ steps_ok no_worse_fit E A.

Lemma bat_like_intro : forall X E n T (Tok : T -> Prop) t it, let C := e_cfg E in
  cfg_ok C -> no_nan (e_prob E) -> repair_ok E -> 0 < n -> Tok t ->
  (forall pop fit xb fxb par l, BatInv C n Tok pop fit xb fxb par l ->
     wp (KBX C X) (it pop fit xb fxb par) (fun a l' => let '(pop', fit', xb', fxb', par') := a in
       BatInv C n Tok pop' fit' xb' fxb' par' l' /\ no_worse_fit (fit, xb, fxb) (fit', xb', fxb')) l) ->
  bat_like X n E (Algo (list vec) (list vec * T) (fun pop => pop) (bat_init C n t) it).
Proof.
  intros X E n T Tok t it C HC Hn Hr Hp Ht Hit.
  set (A := Algo (list vec) (list vec * T) (fun pop => pop) (bat_init C n t) it).
  apply (all_c (inside C) X (fun k => k = n) no_worse_fit E A (BatInv C n Tok)); auto.
  - apply bat_init_ok; auto.
  - intros pop fit xb fxb par l [g0 H]. destruct H as [B1 B2 B3 B4 B5 B6 B7 B8 B9 B10]. cbn [b_pop b_fit b_xb b_fxb b_v b_t] in *. auto.
Qed.
