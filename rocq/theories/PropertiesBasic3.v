(** Final theorems about BacterialForagingOptimization (C84), the glowworm swarms (C85), MonkeyKingEvolution versions 1 and 2 (C86) and 3 (C87)
    and FishSchoolSearch (C88). *)
From Coq Require Import ZArith Lia Bool List Permutation Sorting.Sorted.
From Verif Require Import Num Task TaskSpec TaskProofs TaskProofs2 Prog Wp GetBest Run RunSpec RunProofs RunProofs2
  AlgoLib Fops AlgTac StepSpec StepLib Indiv IndivLib Repair AlgPSO AlgPSOProofs AlgSwarm PopLib Reach AlgBasic2 AlgBasic2Proofs B64 B64Spec B64Int ExLib ExLib2
  AlgOther AlgOtherProofs PropertiesOther PropertiesBasic2 PropertiesMod Endless AlgBasic3 AlgBasic3Proofs.
From Verif Require BenchLib PropertiesRepair.
Import ListNotations.
Open Scope nat_scope.

(** a loop over 0, ..., n - 1 *)
Inductive looped {S : Type} (R : nat -> S -> S -> elog -> elog -> Prop) : nat -> S -> S -> elog -> elog -> Prop :=
| looped_0 : forall s l, looped R 0 s s l l
| looped_S : forall i s s1 s2 l l1 l2, looped R i s s1 l l1 -> R i s1 s2 l1 l2 -> looped R (Datatypes.S i) s s2 l l2.
Lemma w_looped : forall S K n (f : S -> nat -> prog S) (R : nat -> S -> S -> elog -> elog -> Prop) s (Q : S -> elog -> Prop) l,
  (forall i s l (Q : S -> elog -> Prop), i < n -> (forall s' l', R i s s' l l' -> Q s' l') -> wp K (f s i) Q l) ->
  (forall s' l', looped R n s s' l l' -> Q s' l') -> wp K (for_range n f s) Q l.
Proof.
  intros S K n f R s Q l H HQ. eapply wp_conseq0; [|exact HQ]. apply wp_for_range with (I := fun i s' l' => looped R i s s' l l'); [constructor|].
  intros i s1 l1 Hi H1. apply H; auto. intros s2 l2 H2. rewrite Nat.add_1_r. econstructor; eauto.
Qed.

Lemma nth_rep : forall A i m (a d : A), i < m -> nth i (repeat a m) d = a.
Proof. intros A i m a d H. rewrite (nth_indep _ d a) by (rewrite repeat_length; auto). apply nth_repeat. Qed.

(** ** C84: BacterialForagingOptimization *)
Theorem C84_bfo : forall F E p k0 j0, let C := e_cfg E in
  cfg_ok C -> no_nan (e_prob E) -> repair_ok E -> 0 < bf_n p ->
  best_run_p (drawn_or_inside F C) (fun _ => False) E (bfo F C p k0 j0) /\ sizes_ok (fun m => m = bf_n p \/ m = 2 * (bf_n p / 2)) E (bfo F C p k0 j0).
Proof.
  intros F E p k0 j0 C HC Hn Hr Hp.
  refine (all2_c (drawn_or_inside F C) (fun _ => False) _ E (bfo F C p k0 j0) (bfo_I F C p) HC Hn Hr _ _ _).
  - apply bfo_init_c; auto.
  - apply bfo_iter_c; auto.
  - intros pop fit xb fxb st l (m & Hm & [B1 B2 B3 B4 B5 B6 B7 B8]). cbn [bc_pop bc_fit bc_best fst snd] in *. split; auto. split; auto. rewrite B2. exact Hm.
Qed.
(** in binary64 every evaluated point lies in the domain *)
Theorem C84_inside_64 : forall E p k0 j0, let C := e_cfg E in
  cfg_ok C -> bounds64 C -> no_nan (e_prob E) -> repair_ok E -> 0 < bf_n p -> best_run E (bfo b64ops C p k0 j0).
Proof.
  intros E p k0 j0 C HC HB Hn Hr Hp. eapply best_run_p_imp; [|apply (C84_bfo b64ops E p k0 j0 HC Hn Hr Hp)]. intros x Hx. apply doi_inside; auto.
Qed.
(** every cell has the value of its position, one cost and one health value *)
Theorem C84_cells : forall F E p k0 j0, let C := e_cfg E in
  cfg_ok C -> no_nan (e_prob E) -> repair_ok E -> 0 < bf_n p ->
  forall s w, reached E (bfo F C p k0 j0) s w -> let m := length (r_pop s : list vec) in
  (m = bf_n p \/ m = 2 * (bf_n p / 2)) /\ Forall2 (Seen (log_of (c_opt C) (w_h w))) (r_pop s) (r_fit s) /\
  length (bs_cost (r_par s)) = m /\ length (bs_health (r_par s)) = m.
Proof.
  intros F E p k0 j0 C HC Hn Hr Hp s w H m.
  assert (G := reach_c (drawn_or_inside F C) (fun _ => False) E (bfo F C p k0 j0) (bfo_I F C p) Hn Hr (bfo_init_c F C p _ HC k0 j0 Hp) (bfo_iter_c F C p _ HC k0 j0) s w H).
  destruct G as (m' & Hm & [B1 B2 B3 B4 B5 B6 B7 B8]). cbn [bc_pop bc_fit bc_best bc_cost bc_health fst snd] in *. unfold m. rewrite B1. auto.
Qed.
(** what the cells tell a cell at y: attraction and repulsion fall off with the distance *)
Definition signal (F : fops) (p : bfo_par) (y : vec) (pop : list vec) : num :=
  if bf_swarming p then
    fadd F (vsum F (map (fun x => fmul F (fneg (bf_datt p)) (fexp F (fmul F (fneg (bf_watt p)) (euclidean F y x)))) pop))
           (vsum F (map (fun x => fmul F (bf_hrep p) (fexp F (fmul F (fneg (bf_wrep p)) (euclidean F y x)))) pop))
  else flit F 0 1.
Lemma signal_eq : forall F p y pop, bfo_interaction F p y pop = signal F p y pop.
Proof. intros. unfold bfo_interaction, signal. destruct (bf_swarming p); auto. cbv zeta. rewrite !map_map. reflexivity. Qed.
(** x, then ys, each related to the one before *)
Fixpoint chain {A} (R : A -> A -> Prop) (x : A) (ys : list A) : Prop := match ys with [] => True | y :: r => R x y /\ chain R y r end.
(** strictly better points replace the best one *)
Fixpoint best_along (ys : list vec) (fs : list num) (b : vec * num) : vec * num :=
  match ys, fs with y :: ys', f :: fs' => best_along ys' fs' (if fltb f (snd b) then (y, f) else b) | _, _ => b end.
(** cell i at x swims along dir through ys: at most n_swim + 1 points, all but the last of lower cost than where it started *)
Definition swims (F : fops) (E : env) (p : bfo_par) (i : nat) (dir : vec) (jlast : num) (left : nat) (s s' : bfo_cur) (l l' : elog) : Prop :=
  exists x h ys fs cs, nth_error (bc_pop s) i = Some x /\ nth_error (bc_health s) i = Some h /\
  chain (fun a b => repaired E (vadd F a (vscale F (bf_step p) dir)) b) x ys /\ evaluated_all ys fs l l' /\
  length cs = length ys /\ 1 <= length ys <= S left /\
  (forall k, k < length ys -> nth k cs NaN = fadd F (nth k fs NaN) (signal F p (nth k ys []) (upd (bc_pop s) i (nth k ys [])))) /\
  (forall k, k < length ys -> (S k < length ys -> fleb jlast (nth k cs NaN) = false) /\ (S k = length ys -> length ys = S left \/ fleb jlast (nth k cs NaN) = true)) /\
  s' = BFOCur (upd (bc_pop s) i (last ys [])) (upd (bc_fit s) i (last fs NaN)) (upd (bc_cost s) i (last cs NaN)) (upd (bc_health s) i (fold_left (fadd F) cs h)) (best_along ys fs (bc_best s)).
Lemma upd_upd : forall A (xs : list A) i a b, upd (upd xs i a) i b = upd xs i b.
Proof. induction xs; destruct i; simpl; intros; auto. rewrite IHxs. auto. Qed.
Lemma last_cons : forall A (a : A) r d, r <> [] -> last (a :: r) d = last r d.
Proof. intros A a [|b r] d H; [congruence|reflexivity]. Qed.
Lemma w_swims : forall E F p i dir jlast left s (Q : bfo_cur -> elog -> Prop) l,
  (forall s' l', swims F E p i dir jlast left s s' l l' -> Q s' l') -> wp (K_tr E) (bfo_swim F p i dir jlast left s) Q l.
Proof.
  intros E F p i dir jlast left. induction left as [|left IH]; intros s Q l HQ; cbn [bfo_swim]; unfold setP;
    apply wp_bind; apply w_nthP_tr; intros x Ex; apply wp_bind; apply w_repair_tr; intros y Hy;
    (destruct (i <? length (bc_pop s)) eqn:Q1; [|apply Nat.ltb_ge in Q1; apply nth_error_None in Q1; congruence]); apply wp_bind; apply w_done; apply wp_bind; apply w_eval_tr; intros f l1 He;
    (destruct (i <? length (bc_fit s)) eqn:Q2; [|exact I]); apply wp_bind; apply w_done; cbv zeta;
    (destruct (i <? length (bc_cost s)) eqn:Q3; [|exact I]); apply wp_bind; apply w_done; apply wp_bind; apply w_nthP_tr; intros h Eh;
    (destruct (i <? length (bc_health s)) eqn:Q4; [|exact I]); apply wp_bind; apply w_done; rewrite !signal_eq;
    set (c := fadd F f (signal F p y (upd (bc_pop s) i y)));
    (assert (One : forall lf, lf = 0 \/ fleb jlast c = true -> swims F E p i dir jlast lf s (BFOCur (upd (bc_pop s) i y) (upd (bc_fit s) i f) (upd (bc_cost s) i c) (upd (bc_health s) i (fadd F h c)) (if_better y f (bc_best s))) l l1);
     [intros lf Hlf; exists x, h, [y], [f], [c]; split; [auto|]; split; [auto|]; split; [split; [auto|exact I]|]; split; [econstructor; [exact He|constructor]|]; split; [reflexivity|]; split; [simpl; lia|];
      split; [intros [|k] Hk; [reflexivity|simpl in Hk; lia]|]; split; [|reflexivity];
      intros [|k] Hk; [|simpl in Hk; lia]; split; [simpl; lia|]; intros _; destruct Hlf as [->|Hlf]; [left; reflexivity|right; exact Hlf]|]).
  - apply w_done. apply HQ. apply One. auto.
  - destruct (fleb jlast c) eqn:Qc; [apply w_done; apply HQ; apply One; auto|]. clear One. apply IH. cbn [bc_pop bc_fit bc_cost bc_health bc_best].
    intros s' l' (x1 & h1 & ys & fs & cs & G1 & G2 & G3 & G4 & G5 & G6 & G7 & G8 & ->). cbn [bc_pop bc_fit bc_cost bc_health bc_best] in *. apply HQ.
    apply Nat.ltb_lt in Q1, Q4. rewrite nth_upd_same in G1 by auto. rewrite nth_upd_same in G2 by auto. injection G1 as <-. injection G2 as <-.
    assert (Lf : length fs = length ys) by (clear - G4; induction G4; simpl; auto).
    assert (Nn : ys <> [] /\ fs <> [] /\ cs <> []) by (destruct ys, fs, cs; simpl in *; repeat split; try lia; discriminate). destruct Nn as (N1 & N2 & N3).
    exists x, h, (y :: ys), (f :: fs), (c :: cs). split; [auto|]. split; [auto|]. split; [split; auto|]. split; [econstructor; eauto|]. split; [simpl; auto|]. split; [simpl; lia|]. split; [|split].
    + intros [|k] Hk; [reflexivity|]. simpl in Hk. cbn [nth]. rewrite G7 by lia. rewrite upd_upd. reflexivity.
    + intros [|k] Hk; cbn [nth length]; [split; [intros; auto|intros Hone; destruct ys; simpl in *; [congruence|lia]]|]. simpl in Hk. destruct (G8 k) as [G9 G10]; [lia|]. split; [intros; apply G9; lia|]. intros Hk'.
      destruct G10; [lia|left; lia|right; auto].
    + rewrite !upd_upd. rewrite !last_cons by auto. reflexivity.
Qed.
(** the direction has length one up to rounding *)
Definition tumble (F : fops) (d : nat) (dir : vec) : Prop :=
  exists delta, comps d delta (fun j c => fleb (flit F (-1) 1) (flit F 1 1) = true -> fleb (flit F (-1) 1) c = true /\ fleb c (flit F 1 1) = true) /\
    comps d dir (fun j c => c = fdiv F (nth j delta NaN) (fsqrt F (vsum F (map (fun a => fmul F a a) delta)))).
(** one cell: its cost, a random direction, and the swim *)
Definition cell_step (F : fops) (E : env) (p : bfo_par) (i : nat) (s s' : bfo_cur) (l l' : elog) : Prop :=
  exists x f dir, nth_error (bc_pop s) i = Some x /\ nth_error (bc_fit s) i = Some f /\ tumble F (c_dim (e_cfg E)) dir /\
  let jlast := fadd F f (signal F p x (bc_pop s)) in
  swims F E p i dir jlast (bf_swim p) (BFOCur (bc_pop s) (bc_fit s) (upd (bc_cost s) i jlast) (bc_health s) (bc_best s)) s' l l'.
Lemma w_cell : forall F E p s i (Q : bfo_cur -> elog -> Prop) l, (forall s' l', cell_step F E p i s s' l l' -> Q s' l') -> wp (K_tr E) (bfo_cell F (e_cfg E) p s i) Q l.
Proof.
  intros F E p s i Q l HQ. unfold bfo_cell. apply wp_bind. apply w_nthP_tr. intros f Ef. apply wp_bind. apply w_nthP_tr. intros x Ex. cbv zeta. rewrite signal_eq. unfold setP.
  destruct (i <? length (bc_cost s)); [|exact I]. apply wp_bind. apply w_done. apply wp_bind. unfold bfo_direction. apply wp_bind. apply AlgEvoProofs.w_uniform_vec_len with (n := c_dim (e_cfg E)); try apply repeat_length.
  intros delta [Ld Hd]. apply w_done. apply w_swims. intros s' l' Hs. apply HQ. exists x, f. eexists. split; auto. split; auto. split; [|exact Hs]. exists delta. split.
  - split; auto. intros j Hj Hle. specialize (Hd j Hj). rewrite !nth_rep in Hd by auto. auto.
  - split; [rewrite map_length; auto|]. intros j Hj. exact (nth_mapn _ _ _ delta j _ NaN NaN Ld Hj).
Qed.
(** the half with the smallest health values, twice, with no health *)
Definition reproduced (F : fops) (p : bfo_par) (s s' : bfo_cur) : Prop :=
  exists rows rest : list (vec * num * num * num), Permutation (rows ++ rest) (zip4 (bc_pop s) (bc_fit s) (bc_cost s) (bc_health s)) /\
  length rows = Nat.min (bf_n p / 2) (length (zip4 (bc_pop s) (bc_fit s) (bc_cost s) (bc_health s))) /\
  (~ In NaN (bc_health s) -> forall a b, In a rows -> In b rest -> fleb (snd a) (snd b) = true) /\
  bc_pop s' = map (fun r => fst (fst (fst r))) rows ++ map (fun r => fst (fst (fst r))) rows /\
  bc_fit s' = map (fun r => snd (fst (fst r))) rows ++ map (fun r => snd (fst (fst r))) rows /\
  bc_cost s' = map (fun r => snd (fst r)) rows ++ map (fun r => snd (fst r)) rows /\
  bc_health s' = repeat (flit F 0 1) (2 * length rows) /\ bc_best s' = bc_best s.
(** a cell is moved anywhere with the given probability *)
Definition dispersed (F : fops) (E : env) (p : bfo_par) (i : nat) (s s' : bfo_cur) (l l' : elog) : Prop :=
  exists u, in_unit u /\
  ((fltb u (bf_prob p) = false /\ s' = s /\ l' = l) \/
   (fltb u (bf_prob p) = true /\ exists x f, drawn F (e_cfg E) x /\ evaluated x f l l' /\
      s' = BFOCur (upd (bc_pop s) i x) (upd (bc_fit s) i f) (bc_cost s) (bc_health s) (if fltb f (snd (bc_best s)) then (x, f) else bc_best s))).
Lemma w_disperse : forall F E p s i (Q : bfo_cur -> elog -> Prop) l, (forall s' l', dispersed F E p i s s' l l' -> Q s' l') -> wp (K_tr E) (bfo_disperse F (e_cfg E) p s i) Q l.
Proof.
  intros F E p s i Q l HQ. unfold bfo_disperse. apply wp_bind. apply w_random_u. intros u Hu. destruct (fltb u (bf_prob p)) eqn:Q1.
  - apply wp_bind. apply w_random_vec_u. intros r Lr Ur. cbv zeta. unfold setP. destruct (i <? length (bc_pop s)); [|exact I]. apply wp_bind. apply w_done. apply wp_bind. apply w_eval_tr. intros f l' He.
    destruct (i <? length (bc_fit s)); [|exact I]. apply wp_bind. apply w_done. apply w_done. apply HQ. exists u. split; auto. right. split; auto. eexists. exists f. split; [exists r; split; [exact Lr|split; [exact Ur|right; reflexivity]]|]. split; [exact He|]. reflexivity.
  - apply w_done. apply HQ. exists u. split; auto.
Qed.
(** one iteration *)
Definition bfo_eq (F : fops) (E : env) (p : bfo_par) (k j : nat) (s s' : bfo_cur) (k' j' : nat) (l l' : elog) : Prop :=
  exists s1 l1 s2 jm, looped (cell_step F E p) (length (bc_pop s)) s s1 l l1 /\
  ((S k < bf_chem p /\ k' = S k /\ jm = j /\ s2 = s1) \/ (bf_chem p <= S k /\ k' = 0 /\ jm = S j /\ reproduced F p s1 s2)) /\
  ((jm < bf_repr p /\ j' = jm /\ s' = s2 /\ l' = l1) \/ (bf_repr p <= jm /\ j' = 0 /\ looped (dispersed F E p) (length (bc_pop s2)) s2 s' l1 l')).
Theorem C84_step : forall F E p k0 j0 pop fit xb fxb st pop' fit' xb' fxb' st' wd wd', let C := e_cfg E in
  exec E (a_iter (bfo F C p k0 j0) pop fit xb fxb st) wd = (Ret (pop', fit', xb', fxb', st'), wd') ->
  bfo_eq F E p (bs_k st) (bs_j st) (BFOCur pop fit (bs_cost st) (bs_health st) (xb, fxb)) (BFOCur pop' fit' (bs_cost st') (bs_health st') (xb', fxb')) (bs_k st') (bs_j st')
    (log_of (c_opt C) (w_h wd)) (log_of (c_opt C) (w_h wd')).
Proof.
  intros F E p k0 j0 pop fit xb fxb st pop' fit' xb' fxb' st' wd wd' C Ex. set (l := log_of (c_opt C) (w_h wd)).
  apply (tr_sound _ E _ (fun s' l' => let '(pop', fit', xb', fxb', st') := s' in
    bfo_eq F E p (bs_k st) (bs_j st) (BFOCur pop fit (bs_cost st) (bs_health st) (xb, fxb)) (BFOCur pop' fit' (bs_cost st') (bs_health st') (xb', fxb')) (bs_k st') (bs_j st') l l') _ _ _) in Ex; [exact Ex|]. fold C l. clear.
  cbn [a_iter bfo]. unfold bfo_iter. apply wp_bind. apply w_looped with (R := cell_step F E p).
  { intros i s l0 Q _ HQ. apply w_cell. exact HQ. }
  intros s1 l1 H1. cbv zeta. set (repr := bf_chem p <=? S (bs_k st)). set (s2 := if repr then bfo_reproduce F p s1 else s1). set (jm := if repr then S (bs_j st) else bs_j st).
  assert (G2 : (S (bs_k st) < bf_chem p /\ (if repr then 0 else S (bs_k st)) = S (bs_k st) /\ jm = bs_j st /\ s2 = s1) \/ (bf_chem p <= S (bs_k st) /\ (if repr then 0 else S (bs_k st)) = 0 /\ jm = S (bs_j st) /\ reproduced F p s1 s2)).
  { unfold s2, jm, repr. destruct (Nat.leb_spec (bf_chem p) (S (bs_k st))); [right|left; auto]. split; auto. split; auto. split; auto. unfold bfo_reproduce, reproduced, bfo_row. cbn [bc_pop bc_fit bc_cost bc_health bc_best].
    set (z := zip4 (bc_pop s1) (bc_fit s1) (bc_cost s1) (bc_health s1)). set (key := fun r : vec * num * num * num => snd r).
    exists (firstn (bf_n p / 2) (sort_on key z)), (skipn (bf_n p / 2) (sort_on key z)). rewrite firstn_skipn. split; [apply Permutation_sym; apply sort_on_perm|]. split; [rewrite firstn_length, sort_on_length; auto|]. split.
    { assert (Hz : forall r, In r z -> In (snd r) (bc_health s1)).
      { clear. unfold z. generalize (bc_fit s1), (bc_cost s1), (bc_health s1). induction (bc_pop s1) as [|a pop IH]; intros [|b fit] [|c cost] [|h hs] r Hr; cbn [zip4] in Hr; try contradiction.
        destruct Hr as [<-|Hr]; [left; reflexivity|right; eauto]. }
      intros Hn a b Ha Hb. assert (K := sort_on_split _ key z _ a b Ha Hb). apply key_le_fleb; [|exact K]. intros Hq; apply Hn; rewrite <- Hq; apply Hz.
      apply skipn_In in Hb. apply sort_on_In in Hb. exact Hb. }
    unfold twice. repeat (split; [reflexivity|]). split; [|reflexivity]. f_equal. rewrite app_length. lia. }
  clearbody s2 jm. apply wp_bind. destruct (Nat.leb_spec (bf_repr p) jm) as [Hj|Hj].
  - apply w_looped with (R := dispersed F E p); [intros i s l0 Q _ HQ; apply w_disperse; exact HQ|]. intros s3 l3 H3. apply w_done. cbn [bs_cost bs_health bs_k bs_j].
    exists s1, l1, s2, jm. split; [exact H1|]. split; [exact G2|]. right. split; auto. split; auto. destruct s3 as [? ? ? ? [? ?]]. exact H3.
  - apply w_done. apply w_done. cbn [bs_cost bs_health bs_k bs_j]. exists s1, l1, s2, jm. split; [exact H1|]. split; [exact G2|]. left. split; auto. split; auto. destruct s2 as [? ? ? ? [? ?]]. auto.
Qed.
(** number of evaluations of one iteration *)
Theorem C84_cost : forall F E p k j s s' k' j' l l', bfo_eq F E p k j s s' k' j' l l' ->
  length l' <= length l + length (bc_pop s) * S (bf_swim p) + 2 * (bf_n p / 2) + length (bc_pop s).
Proof.
  intros F E p k j s s' k' j' l l' (s1 & l1 & s2 & jm & H1 & H2 & H3).
  assert (Ev : forall ys fs l l', evaluated_all ys fs l l' -> length l' <= length l + length ys).
  { clear. intros ys fs l l' H. induction H; simpl; [lia|]. destruct H as [[_ ->]| ->]; simpl in *; lia. }
  assert (A1 : forall m s s1 l l1, looped (cell_step F E p) m s s1 l l1 -> length (bc_pop s1) = length (bc_pop s) /\ length l1 <= length l + m * S (bf_swim p)).
  { clear - Ev. intros m s s1 l l1 H. induction H as [|i s s1 s2 l l1 l2 H IH H']; [lia|]. destruct H' as (x & f & dir & _ & _ & _ & x' & h & ys & fs & cs & _ & _ & _ & G4 & _ & G6 & _ & _ & ->). apply Ev in G4.
    cbn [bc_pop]. rewrite upd_length. simpl. lia. }
  assert (A2 : forall m s s1 l l1, looped (dispersed F E p) m s s1 l l1 -> length l1 <= length l + m).
  { clear. intros m s s1 l l1 H. induction H as [|i s s1 s2 l l1 l2 H IH H']; [lia|]. destruct H' as (u & _ & [(_ & _ & ->)|(_ & x & f & _ & He & _)]); [lia|]. destruct He as [[_ ->]| ->]; simpl; lia. }
  destruct (A1 _ _ _ _ _ H1) as [B1 B2].
  assert (B3 : length (bc_pop s2) <= 2 * (bf_n p / 2) + length (bc_pop s)).
  { destruct H2 as [(_ & _ & _ & ->)|(_ & _ & _ & rows & rest & _ & L & _ & -> & _)]; [lia|]. rewrite app_length, !map_length. lia. }
  destruct H3 as [(_ & _ & _ & ->)|(_ & _ & H3)]; [lia|]. apply A2 in H3. lia.
Qed.
(** an empty population stays empty, and no evaluation is made any more *)
Theorem C84_empty : forall F E p k0 j0 k, let C := e_cfg E in let A := bfo F C p k0 j0 in
  c_max_iters C = LInf -> going E A k = true ->
  match state_after E A k with Some (s, w) => r_pop s = [] /\ r_fit s = [] /\ bs_cost (r_par s) = [] /\ bs_health (r_par s) = [] /\ stopping_condition C (w_ts w) = false | None => False end -> never_ends E A.
Proof.
  intros F E p k0 j0 k C A Hi G H.
  apply (endless E A (fun s w => (r_pop s = [] /\ r_fit s = [] /\ bs_cost (r_par s) = [] /\ bs_health (r_par s) = []) /\ stopping_condition C (w_ts w) = false)) with (k := k); auto.
  - clear H. intros s w [(P1 & P2 & P3 & P4) P5]. split; auto.
    assert (Qt : quiet (a_iter A (r_pop s) (r_fit s) (r_xb s) (r_fxb s) (r_par s)) (fun r => let '(pop, fit, xb, fxb, par) := r in pop = [] /\ fit = [] /\ bs_cost par = [] /\ bs_health par = [])).
    { cbn [a_iter bfo A]. unfold bfo_iter. rewrite P1, P2, P3, P4. cbn [length]. unfold for_range. cbn [seq foldM bind]. cbv zeta.
      destruct (bf_chem p <=? S (bs_k (r_par s))).
      - unfold bfo_reproduce. cbn [bc_pop bc_fit bc_cost bc_health bc_best zip4]. replace (sort_on (fun r : bfo_row => snd r) []) with (@nil bfo_row) by reflexivity. rewrite firstn_nil. cbn [map twice app length repeat seq foldM].
        destruct (_ <=? _); cbn [bind quiet bc_pop bc_fit bc_cost bc_health bs_cost bs_health]; auto.
      - destruct (_ <=? _); cbn [bc_pop length seq foldM bind quiet bc_fit bc_cost bc_health bs_cost bs_health]; auto. }
    apply (quiet_exec E _ _ _ w) in Qt. destruct Qt as ([[[[pop fit] xb] fxb] par] & n & Ex & Q). exists pop, fit, xb, fxb, par. eexists. split; [exact Ex|]. cbn [r_pop r_fit r_par w_ts]. split; auto.
    rewrite <- P5. unfold stopping_condition. rewrite Hi. reflexivity.
  - destruct (state_after E A k) as [[s w]|]; auto. destruct H as (H1 & H2 & H3 & H4 & H5). auto.
Qed.

(** ** C85: GlowwormSwarmOptimization and its variants *)
Theorem C85_gso : forall F E pi p, let C := e_cfg E in
  cfg_ok C -> no_nan (e_prob E) -> repair_ok E -> 0 < gw_n p ->
  best_run E (gso F C pi p) /\ sizes_ok (fun n => n = gw_n p) E (gso F C pi p).
Proof.
  intros F E pi p C HC Hn Hr Hp.
  refine (all2_c (inside C) (fun _ => False) (fun n => n = gw_n p) E (gso F C pi p) (gso_I C p) HC Hn Hr _ _ _).
  - apply gso_init_c; auto.
  - apply gso_iter_c; auto.
  - intros pop fit xb fxb st l [[P1 P2 P3 P4 P5 P6] _]. auto.
Qed.
(** the probability that is accumulated is the one of the glowworm itself, which is zero *)
Lemma own_zero : forall F p i r pop luc v, nth_error (gso_probabilities F i (gso_neighbors p i r pop luc) luc) i = Some v -> v = flit F 0 1.
Proof.
  intros F p i r pop luc v. unfold gso_probabilities. cbv zeta. set (d := fadd F _ _). clearbody d. set (li := nth i luc NaN). clearbody li.
  assert (G : forall b, nth_error (gso_neighbors p i r pop luc) i = Some b -> b = false).
  { unfold gso_neighbors. set (x := nth i pop []). clearbody x. set (u := nth i luc NaN). clearbody u.
    assert (G : forall ys k j b, i = k + j -> nth_error (map2 (fun j y => negb (i =? j) && fleb (gw_dist p x y) r && fleb (nth j luc NaN) u) (seq k (length ys)) ys) j = Some b -> b = false).
    { induction ys as [|y ys IH]; intros k j b E H; [destruct j; discriminate|]. cbn [length seq map2] in H. destruct j as [|j]; cbn [nth_error] in H.
      - replace (i =? k) with true in H by (symmetry; apply Nat.eqb_eq; lia). injection H as <-. reflexivity.
      - apply (IH (S k) j); [lia|exact H]. }
    intros b. apply (G pop 0 i b). reflexivity. }
  revert G. generalize (gso_neighbors p i r pop luc) as nb. intros nb. clear pop r p. revert i nb.
  induction luc as [|a luc IH]; intros [|i] [|b nb] G H; cbn [map2 nth_error] in *; try discriminate.
  - rewrite (G b eq_refl) in H. congruence.
  - exact (IH i nb G H).
Qed.
Lemma probabilities_length : forall F p i r pop luc, length (gso_probabilities F i (gso_neighbors p i r pop luc) luc) = Nat.min (length pop) (length luc).
Proof. intros. unfold gso_probabilities. cbv zeta. rewrite BenchLib.map2_length, nbs_length. reflexivity. Qed.
Lemma no_wheel : forall F r js, fadd F (flit F 0 1) (flit F 0 1) = flit F 0 1 -> gso_roulette F (flit F 0 1) r (flit F 0 1) js = None.
Proof.
  intros F r js H. induction js as [|j js IH]; cbn [gso_roulette]; auto. rewrite H. rewrite IH. destruct (fltb (flit F 0 1) r) eqn:Q; auto.
  assert (Q' : fltb r (flit F 0 1) = false) by (apply fleb_fltb_false; apply fltb_fleb; auto). rewrite Q'. reflexivity.
Qed.
(** one iteration: everybody moves towards a glowworm drawn from all *)
Definition gso_eq (F : fops) (E : env) (p : gso_par) (pop : list vec) (fit : list num) (xb : vec) (fxb : num) (pop' : list vec) (fit' : list num) (xb' : vec) (fxb' : num) (l l' : elog) : Prop :=
  exists js, length js = gw_n p /\ Forall (fun j => j < gw_n p) js /\ length pop' = gw_n p /\
  (forall i, i < gw_n p -> exists x y z, nth_error pop i = Some x /\ nth_error pop (nth i js 0) = Some y /\ nth_error pop' i = Some z /\
     repaired E (vadd F x (vscale F (gw_s p) (map (fun a => fdiv F a (fadd F (gw_dist p y x) (flit F 1 (10 ^ 31)))) (vsub F y x)))) z) /\
  evaluated_all pop' fit' l l' /\ get_best pop' fit' (Some xb) fxb = Ret (xb', fxb').
Theorem C85_step : forall F E pi p pop fit xb fxb st pop' fit' xb' fxb' st' wd wd', let C := e_cfg E in
  exec E (a_iter (gso F C pi p) pop fit xb fxb st) wd = (Ret (pop', fit', xb', fxb', st'), wd') ->
  gso_eq F E p pop fit xb fxb pop' fit' xb' fxb' (log_of (c_opt C) (w_h wd)) (log_of (c_opt C) (w_h wd')) /\
  gl_sensing st' = gl_sensing st /\ length (gl_ranges st') = gw_n p /\
  (fleb (flit F 0 1) (gl_sensing st) = true -> Forall (fun r => fleb (flit F 0 1) r = true /\ fleb r (gl_sensing st) = true) (gl_ranges st')).
Proof.
  intros F E pi p pop fit xb fxb st pop' fit' xb' fxb' st' wd wd' C Ex. set (l := log_of (c_opt C) (w_h wd)).
  apply (tr_sound _ E _ (fun s' l' => let '(pop', fit', xb', fxb', st') := s' in
    gso_eq F E p pop fit xb fxb pop' fit' xb' fxb' l l' /\ gl_sensing st' = gl_sensing st /\ length (gl_ranges st') = gw_n p /\
    (fleb (flit F 0 1) (gl_sensing st) = true -> Forall (fun r => fleb (flit F 0 1) r = true /\ fleb r (gl_sensing st) = true) (gl_ranges st'))) _ _ _) in Ex; [exact Ex|]. fold C l. clear.
  cbn [a_iter gso]. unfold gso_iter. cbv zeta. match goal with |- wp _ (bind (mapM (fun i => bind (nthP ?P i) _) _) _) _ _ => generalize P as pbs; intros pbs end.
  apply wp_bind. apply wp_conseq0 with (Q := fun js l' => (l' = l /\ Forall (fun j => j < gw_n p) js) /\ length js = length (seq 0 (gw_n p))).
  { apply (wp_mapM_acc _ _ _ _ (fun js l' => l' = l /\ Forall (fun j => j < gw_n p) js)); [auto|]. intros pre i post bs l' E' _ [-> Hb].
    apply wp_bind. apply w_nthP_tr. intros pb _. unfold gso_select. apply wp_bind. apply w_random. intros r _ _. apply wp_bind. apply w_nthP_tr. intros q _.
    destruct (gso_roulette _ _ _ _ _) as [j|] eqn:Er.
    - apply w_done. split; auto. apply Forall_app. split; auto. constructor; auto. apply roulette_range in Er. apply in_seq in Er. lia.
    - apply w_integers_tr. intros j Hj. split; auto. apply Forall_app. auto. }
  intros js l0 [[-> Hj] Lj]. rewrite seq_length in Lj. apply wp_bind.
  apply wp_conseq0 with (Q := fun pop' l' => (l' = l /\ (forall i, i < length pop' -> exists x y z, nth_error pop i = Some x /\ nth_error pop (nth i js 0) = Some y /\ nth_error pop' i = Some z /\
     repaired E (vadd F x (vscale F (gw_s p) (map (fun a => fdiv F a (fadd F (gw_dist p y x) (flit F 1 (10 ^ 31)))) (vsub F y x)))) z)) /\ length pop' = length (combine (seq 0 (gw_n p)) js)).
  { apply (wp_mapM_acc _ _ _ _ (fun pop' l' => l' = l /\ (forall i, i < length pop' -> exists x y z, nth_error pop i = Some x /\ nth_error pop (nth i js 0) = Some y /\ nth_error pop' i = Some z /\
     repaired E (vadd F x (vscale F (gw_s p) (map (fun a => fdiv F a (fadd F (gw_dist p y x) (flit F 1 (10 ^ 31)))) (vsub F y x)))) z))).
    { split; auto. intros i Hi. simpl in Hi. lia. }
    intros pre [i j] post bs l' E' Lb [-> Hb]. unfold gso_move. cbn [fst snd]. apply wp_bind. apply w_nthP_tr. intros x Ex. apply wp_bind. apply w_nthP_tr. intros y Ey. apply w_repair_tr. intros z Hz. split; auto.
    assert (Hij : nth_error (combine (seq 0 (gw_n p)) js) (length pre) = Some (i, j)) by (rewrite E', nth_error_app2, Nat.sub_diag by auto; reflexivity).
    assert (Hp : length pre < gw_n p). { assert (L := nth_error_Some (combine (seq 0 (gw_n p)) js) (length pre)). rewrite Hij, combine_length, seq_length in L. assert (length pre < Nat.min (gw_n p) (length js)) by (apply L; discriminate). lia. }
    assert (Hc := nth_error_nth _ _ (0, 0) Hij). rewrite combine_nth in Hc by (rewrite seq_length; lia). injection Hc as Hi' Hj'. rewrite seq_nth in Hi' by auto. simpl in Hi'. subst i.
    intros i Hi. rewrite app_length in Hi. simpl in Hi. destruct (Nat.eq_dec i (length bs)) as [->|Hne].
    - rewrite Lb. exists x, y, z. split; auto. split; [congruence|]. split; auto. rewrite <- Lb. rewrite nth_error_app2, Nat.sub_diag by auto. reflexivity.
    - destruct (Hb i) as (x1 & y1 & z1 & B1 & B2 & B3 & B4); [lia|]. exists x1, y1, z1. split; auto. split; auto. split; auto. rewrite nth_error_app1 by lia. auto. }
  intros pop' l0 [[-> Hp] Lp]. rewrite combine_length, seq_length in Lp. apply wp_bind. apply w_eval_all_tr. intros fit' l' He. apply wp_bind. apply w_lift_tr. intros [x f] G. apply w_done. cbn [gl_sensing gl_ranges].
  split; [exists js; split; auto; split; auto; split; [lia|]; split; [intros i Hi; apply Hp; lia|]; split; auto|]. split; auto. split; [rewrite map_length, seq_length; auto|].
  intros Hs. apply Forall_map. apply Forall_forall. intros i _. set (z := gso_range _ _ _ _ _ _). clearbody z. clear - Hs. generalize (flit F 0 1) (gl_sensing st) Hs. clear. intros a b Hs.
  assert (Na : fleb a a = true) by (apply fleb_refl; eapply fleb_nan_l; eauto). assert (Nb : fleb b b = true) by (apply fleb_refl; eapply fleb_nan_r; eauto).
  unfold fmaxb, fminb. destruct (fltb z b) eqn:Q1; [destruct (fltb a z) eqn:Q2|destruct (fltb a b) eqn:Q2]; auto using fltb_fleb.
Qed.
Lemma exec_mapM_ext : forall A B E (f g : A -> prog B) xs w, (forall x w, In x xs -> exec E (f x) w = exec E (g x) w) -> exec E (mapM f xs) w = exec E (mapM g xs) w.
Proof.
  intros A B E f g xs. induction xs as [|x xs IH]; intros w H; cbn [mapM]; auto. rewrite !exec_bind, H by (left; auto). destruct (exec E (g x) w) as [[b|e] w1]; auto.
  rewrite !exec_bind, IH by (intros; apply H; right; auto). reflexivity.
Qed.
Lemma nthP_map_seq : forall A (f : nat -> A) n i, i < n -> nthP (map f (seq 0 n)) i = Done (f i).
Proof. intros A f n i H. unfold nthP. rewrite nth_error_map, (nth_error_nth' _ 0) by (rewrite seq_length; auto). cbn [option_map]. rewrite seq_nth by auto. reflexivity. Qed.
(** two parameter sets that differ in the light, the radii or even the variant give the same run: only the population size, the step and the distance matter *)
Theorem C85_same_run : forall F E pi p p' cb n w, let C := e_cfg E in
  fadd F (flit F 0 1) (flit F 0 1) = flit F 0 1 -> gw_n p = gw_n p' -> gw_s p = gw_s p' -> gw_dist p = gw_dist p' ->
  run_body E (gso F C pi p) cb n w = run_body E (gso F C pi p') cb n w.
Proof.
  intros F E pi p p' cb n w C H0 En Es Ed.
  apply (same_run E (gso F C pi p) (gso F C pi p') (fun q st q' st' => q = q' /\ length (gl_luc st) = length (gl_luc st'))).
  - intros a q a' q' [-> _]. reflexivity.
  - intros w0. cbn [a_init gso]. unfold gso_init. rewrite En. eapply same_bind; [apply same_refl|]. intros [pop fit] b w1 <-. split; [reflexivity|]. cbn [exec fst snd gl_luc]. rewrite !repeat_length. auto.
  - intros pop st pop0 st' fit xb fxb w0 [<- Hl]. cbn [a_iter gso]. unfold gso_iter. cbv zeta. rewrite <- En.
    set (luc := map2 (gso_luciferin F p) (gl_luc st) fit). set (luc' := map2 (gso_luciferin F p') (gl_luc st') fit).
    assert (Ll : length luc = length luc') by (unfold luc, luc'; rewrite !BenchLib.map2_length; congruence). clearbody luc luc'.
    apply same_bind with (R := eq).
    { match goal with |- same eq ?a ?b => replace b with a end; [apply same_refl|]. apply exec_mapM_ext. intros i w1 Hi. apply in_seq in Hi.
      rewrite !exec_bind. rewrite !nthP_map_seq by lia. cbn [exec].
      rewrite !(nth_mapn _ _ _ (seq 0 (gw_n p)) i (gw_n p) 0) by (try apply seq_length; lia). rewrite seq_nth by lia. cbn [Nat.add].
      set (pb := gso_probabilities F i _ luc). set (pb' := gso_probabilities F i _ luc').
      assert (Lpb : length pb = length pb') by (unfold pb, pb'; rewrite !probabilities_length; congruence).
      assert (Z1 : forall v, nth_error pb i = Some v -> v = flit F 0 1) by (intros v; apply own_zero). assert (Z2 : forall v, nth_error pb' i = Some v -> v = flit F 0 1) by (intros v; apply own_zero). clearbody pb pb'.
      unfold gso_select. rewrite !exec_bind. destruct (exec E random w1) as [[r|e] w2]; auto. rewrite !exec_bind. unfold nthP.
      destruct (nth_error pb i) as [v|] eqn:Q1, (nth_error pb' i) as [v'|] eqn:Q2; auto.
      - cbn [exec]. rewrite (Z1 v), (Z2 v') by auto. rewrite !no_wheel by auto. rewrite En. reflexivity.
      - apply nth_error_None in Q2. assert (i < length pb) by (apply nth_error_Some; congruence). lia.
      - apply nth_error_None in Q1. assert (i < length pb') by (apply nth_error_Some; congruence). lia. }
    intros js js' w1 <-. apply same_bind with (R := eq).
    { unfold gso_move. rewrite <- Es, <- Ed. apply same_refl. }
    intros pop1 pop2 w2 <-. eapply same_bind; [apply same_refl|]. intros fit1 fit2 w3 <-. eapply same_bind; [apply same_refl|]. intros [x f] [x' f'] w4 Heq. injection Heq as <- <-. split; [reflexivity|]. cbn [exec fst snd gl_luc]. auto.
Qed.


(** ** C86: MonkeyKingEvolution, versions 1 and 2 *)
(** number of kings *)
Definition n_kings (F : fops) (p : mke_par) : Z := fint F (fmul F (mk_rate p) (fnat F (mk_n p))).
Lemma mke_all : forall F E p (v2 : bool) (X : exn -> Prop), let C := e_cfg E in
  cfg_ok C -> no_nan (e_prob E) -> repair_ok E -> 0 < mk_n p ->
  (0 <= n_kings F p <= Z.of_nat (mk_n p))%Z \/ X EValue -> (if v2 then mk_c p = 0 \/ 2 <= mk_n p else 0 < mk_c p * c_dim C) \/ X EValue ->
  best_run_x X E (mke12 F C p v2) /\ sizes_ok (fun n => n = mk_n p) E (mke12 F C p v2).
Proof.
  intros F E p v2 X C HC Hn Hr Hp Hk Hc.
  refine (all2_c (inside C) X (fun n => n = mk_n p) E (mke12 F C p v2) (fun pop fit xb fxb _ l => MkeInv F C p pop fit xb fxb l) HC Hn Hr _ _ _).
  - apply mke_init_c; auto.
  - apply mke_iter_c; auto.
  - intros pop fit xb fxb st l [M1 M2 M3 M4 M5 M6]. split; auto. split; auto. subst fit. unfold mo_fits. rewrite map_length. auto.
Qed.
(** whatever the parameters are, ValueError is the only error of its own *)
Theorem C86_mke_any : forall F E p (v2 : bool), let C := e_cfg E in
  cfg_ok C -> no_nan (e_prob E) -> repair_ok E -> 0 < mk_n p ->
  best_run_x (eq EValue) E (mke12 F C p v2) /\ sizes_ok (fun n => n = mk_n p) E (mke12 F C p v2).
Proof. intros F E p v2 C HC Hn Hr Hp. apply (mke_all F E p v2 (eq EValue)); auto. Qed.
(** no error with at most as many kings as monkeys and, for version 1, at least one point per king, for version 2 two monkeys *)
Theorem C86_mke : forall F E p (v2 : bool), let C := e_cfg E in
  cfg_ok C -> no_nan (e_prob E) -> repair_ok E -> 0 < mk_n p -> (0 <= n_kings F p <= Z.of_nat (mk_n p))%Z ->
  (if v2 then mk_c p = 0 \/ 2 <= mk_n p else 0 < mk_c p * c_dim C) ->
  best_run E (mke12 F C p v2).
Proof. intros F E p v2 C HC Hn Hr Hp Hk Hc. apply (mke_all F E p v2 (fun _ => False)); auto. Qed.
(** in binary64 any rate between 0 and 1 will do *)
Theorem C86_mke_64 : forall E p (v2 : bool), let C := e_cfg E in
  cfg_ok C -> no_nan (e_prob E) -> repair_ok E -> 0 < mk_n p -> (Z.of_nat (mk_n p) <= 2 ^ 53)%Z -> fleb f0 (mk_rate p) = true -> fleb (mk_rate p) (flit b64ops 1 1) = true ->
  (if v2 then mk_c p = 0 \/ 2 <= mk_n p else 0 < mk_c p * c_dim C) ->
  best_run E (mke12 b64ops C p v2).
Proof. intros E p v2 C HC Hn Hr Hp Hb H1 H2 Hc. apply C86_mke; auto. apply (C78_rate_64 (mk_rate p) (mk_n p)); auto. Qed.
(** in every state exactly n_kings monkeys are kings; every monkey has the value of its position, and a personal best that is not worse *)
Theorem C86_state : forall F E p (v2 : bool), let C := e_cfg E in
  cfg_ok C -> no_nan (e_prob E) -> repair_ok E -> 0 < mk_n p ->
  forall s w, reached E (mke12 F C p v2) s w -> let l := log_of (c_opt C) (w_h w) in
  length (r_pop s : list monkey) = mk_n p /\ counted (fun m => mo_king m = true) (r_pop s) (Z.to_nat (n_kings F p)) /\ r_fit s = map (fun m => snd (mo_i m)) (r_pop s : list monkey) /\
  Forall (fun m => (inside C (fst (mo_i m)) /\ Seen l (fst (mo_i m)) (snd (mo_i m))) /\ (inside C (fst (mo_pb m)) /\ Seen l (fst (mo_pb m)) (snd (mo_pb m))) /\ fleb (snd (mo_pb m)) (snd (mo_i m)) = true) (r_pop s : list monkey).
Proof.
  intros F E p v2 C HC Hn Hr Hp s w H l.
  assert (G := reach_c (inside C) (eq EValue) E (mke12 F C p v2) (fun pop fit xb fxb _ l => MkeInv F C p pop fit xb fxb l) Hn Hr
    (mke_init_c F C p v2 (eq EValue) HC Hp (or_intror eq_refl)) (mke_iter_c F C p v2 (eq EValue) HC Hp (or_intror eq_refl) (or_intror eq_refl)) s w H).
  destruct G as [M1 M2 M3 M4 M5 M6]. split; auto. split; [|split; auto]. unfold n_kings. unfold mke_z in M6. rewrite <- M6. apply counted_filter. intros m. destruct (mo_king m); split; congruence.
Qed.
(** one monkey: a follower moves from its personal best in the direction of the best point; a king tries several points *)
Definition monkey_eq (F : fops) (E : env) (p : mke_par) (v2 : bool) (xb : vec) (pop : list monkey) (m m1 : monkey) (l l' : elog) : Prop :=
  let d := c_dim (e_cfg E) in
  mo_pb m1 = mo_pb m /\ mo_king m1 = false /\
  ((mo_king m = false /\ exists r, length r = d /\ Forall in_unit r /\
      repaired E (vadd F (fst (mo_pb m)) (vmul F (vscale F (mk_fluct p) r) (vsub F xb (fst (mo_i m))))) (fst (mo_i m1)) /\ evaluated (fst (mo_i m1)) (snd (mo_i m1)) l l') \/
   (mo_king m = true /\ v2 = false /\ exists rs ys fs b, length rs = mk_c p * d /\ Forall (fun r => length r = d /\ Forall in_unit r) rs /\
      Forall2 (repaired E) (map (fun r => vadd F (fst (mo_i m)) (vmul F (vscale F (mk_fc p) r) (fst (mo_i m)))) rs) ys /\ evaluated_all ys fs l l' /\
      nth_error ys b = Some (fst (mo_i m1)) /\ nth_error fs b = Some (snd (mo_i m1)) /\ (~ In NaN fs -> first_min fs b (snd (mo_i m1)))) \/
   (mo_king m = true /\ v2 = true /\
      looped (fun _ b b' l l' => exists r0 r1 m0 m1 a f, r0 <> r1 /\ nth_error pop r0 = Some m0 /\ nth_error pop r1 = Some m1 /\
        repaired E (vsub F (fst (mo_i m)) (vscale F (mk_fc p) (vsub F (fst (mo_i m0)) (fst (mo_i m1))))) a /\ evaluated a f l l' /\ b' = if fltb f (snd b) then (a, f) else b)
        (mk_c p * mk_n p) (mo_i m) (mo_i m1) l l')).
Definition monkey_step (F : fops) (E : env) (p : mke_par) (v2 : bool) (xb : vec) (i : nat) (pop pop' : list monkey) (l l' : elog) : Prop :=
  exists m m1, nth_error pop i = Some m /\ monkey_eq F E p v2 xb pop m m1 l l' /\
  row_set pop pop' i (if fltb (snd (mo_i m1)) (snd (mo_pb m)) then Monkey (mo_i m1) (mo_i m1) false else m1).
(** k different monkeys become kings *)
Definition crowned (k : Z) (n : nat) (pop pop' : list monkey) : Prop :=
  (0 <= k)%Z /\ exists idx, NoDup idx /\ length idx = Z.to_nat k /\ (forall j, In j idx -> j < n) /\ length pop' = length pop /\
  forall j m, nth_error pop j = Some m -> exists m', nth_error pop' j = Some m' /\ mo_i m' = mo_i m /\ mo_pb m' = mo_pb m /\ (mo_king m' = true <-> mo_king m = true \/ In j idx).
Lemma w_monkey : forall F E p v2 xb pop i (Q : list monkey -> elog -> Prop) l,
  (forall pop' l', monkey_step F E p v2 xb i pop pop' l l' -> Q pop' l') -> wp (K_tr E) (mke_step F (e_cfg E) p v2 xb pop i) Q l.
Proof.
  intros F E p v2 xb pop i Q l HQ. unfold mke_step. apply wp_bind. apply w_nthP_tr. intros m Em. apply wp_bind.
  apply wp_conseq0 with (Q := fun m1 l' => monkey_eq F E p v2 xb pop m m1 l l').
  2:{ intros m1 l' Hm. apply w_setP_tr. intros Hs. apply HQ. exists m, m1. split; auto. split; auto.
    destruct Hm as (H1 & H2 & _). unfold mke_personal in *. rewrite H1, H2 in *. exact Hs. }
  destruct (mo_king m) eqn:Ek; [destruct v2|].
  - unfold mke_king2. apply wp_bind.
    eapply (w_looped _ _ _ _ (fun _ b b' l l' => exists r0 r1 m0 m1 a f, r0 <> r1 /\ nth_error pop r0 = Some m0 /\ nth_error pop r1 = Some m1 /\
        repaired E (vsub F (fst (mo_i m)) (vscale F (mk_fc p) (vsub F (fst (mo_i m0)) (fst (mo_i m1))))) a /\ evaluated a f l l' /\ b' = if fltb f (snd b) then (a, f) else b)).
    + intros _ b l0 Q0 _ HQ0. apply wp_bind. apply w_choice_tr. intros [|r0 [|r1 [|? ?]]] Lr ND Hr _; try discriminate. cbn [nthP nth_error bind].
      apply wp_bind. apply w_nthP_tr. intros m0 E0. apply wp_bind. apply w_nthP_tr. intros m1 E1. apply wp_bind. apply w_repair_tr. intros a Ha. apply wp_bind. apply w_eval_tr. intros f l1 He. apply w_done.
      apply HQ0. exists r0, r1, m0, m1, a, f. split; [|auto 8]. intros ->. inversion ND as [|? ? N1 _]; subst. apply N1. left. auto.
    + intros b l' Hl. apply w_done. split; [reflexivity|]. split; [reflexivity|]. right. right. split; auto.
  - unfold mke_king1. cbv zeta. apply wp_bind. apply wp_conseq0 with (Q := fun rs l' => (l' = l /\ Forall (fun r => length r = c_dim (e_cfg E) /\ Forall in_unit r) rs) /\ length rs = mk_c p * c_dim (e_cfg E)).
    { apply (wp_repeatM _ _ _ (fun rs l' => l' = l /\ Forall (fun r => length r = c_dim (e_cfg E) /\ Forall in_unit r) rs)); [auto|]. intros bs l' _ [-> Hb]. apply w_random_vec_u. intros r Lr Ur. split; auto. apply Forall_app. auto. }
    intros rs l0 [[-> Hrs] Lrs]. apply wp_bind. apply w_repair_all_tr. intros ys Hys. apply wp_bind. apply w_eval_all_tr. intros fs l' He. destruct (argmin fs) as [b|] eqn:Eb; [|exact I].
    apply wp_bind. apply w_nthP_tr. intros y Ey. apply wp_bind. apply w_nthP_tr. intros g Eg. apply w_done. split; [reflexivity|]. split; [reflexivity|]. right. left. split; auto. split; auto. exists rs, ys, fs, b. cbn [mo_i fst snd].
    repeat (split; [assumption|]). apply argmin_first; auto.
  - unfold mke_particle. apply wp_bind. apply w_random_vec_u. intros r Lr Ur. apply wp_bind. apply w_ind_evaluate_tr. intros y f l' Hy He. apply w_done. split; [reflexivity|]. split; [exact Ek|]. left. split; auto. exists r. auto.
Qed.
Lemma w_crown : forall F E p pop (Q : list monkey -> elog -> Prop) l,
  (forall pop', crowned (fint F (fmul F (mk_rate p) (fnat F (length pop)))) (mk_n p) pop pop' -> Q pop' l) -> wp (K_tr E) (mke_crown F p pop) Q l.
Proof.
  intros F E p pop Q l HQ. unfold mke_crown. cbv zeta. set (k := fint F _) in *. clearbody k. destruct (k <? 0)%Z eqn:Qk; [exact I|]. apply Z.ltb_ge in Qk. apply wp_bind. apply w_choice_tr. intros idx L1 ND Hr _.
  set (I := fun r pop' (l' : elog) => l' = l /\ length pop' = length pop /\
    forall j m, nth_error pop j = Some m -> exists m', nth_error pop' j = Some m' /\ mo_i m' = mo_i m /\ mo_pb m' = mo_pb m /\ ((mo_king m' = true \/ In j r) <-> (mo_king m = true \/ In j idx))).
  apply wp_conseq0 with (Q := I []).
  - apply (wp_foldM _ _ _ _ I).
    + split; auto. split; auto. intros j m Ej. exists m. split; auto. split; auto. split; auto. reflexivity.
    + intros a r pop' l' _ (-> & I1 & I2). apply wp_bind. apply w_nthP_tr. intros m Em. apply w_setP_tr. intros (R1 & R2 & R3). split; auto. split; [congruence|].
      intros j m0 Ej. destruct (I2 j m0 Ej) as (m' & J1 & J2 & J3 & J4). destruct (Nat.eq_dec j a) as [->|Hne].
      * rewrite Em in J1. injection J1 as <-. eexists. split; [exact R2|]. cbn [mo_i mo_pb mo_king]. split; auto. split; auto. rewrite <- J4. split; intros; [right; left; auto|left; auto].
      * rewrite <- R3 in J1 by auto. exists m'. split; auto. split; auto. split; auto. rewrite <- J4. split; intros [H|H]; auto; [right; right; auto|]. destruct H as [H|H]; [congruence|auto].
  - intros pop' l' (-> & I1 & I2). apply HQ. split; auto. exists idx. repeat (split; [assumption|]). intros j m Ej. destruct (I2 j m Ej) as (m' & J1 & J2 & J3 & J4). exists m'. split; auto. split; auto. split; auto.
    rewrite <- J4. split; [auto|]. intros [H|[]]; auto.
Qed.
Theorem C86_step : forall F E p v2 pop fit xb fxb u pop' fit' xb' fxb' u' wd wd', let C := e_cfg E in
  exec E (a_iter (mke12 F C p v2) pop fit xb fxb u) wd = (Ret (pop', fit', xb', fxb', u'), wd') ->
  exists pop1, looped (monkey_step F E p v2 xb) (length (pop : list monkey)) pop pop1 (log_of (c_opt C) (w_h wd)) (log_of (c_opt C) (w_h wd')) /\
  crowned (fint F (fmul F (mk_rate p) (fnat F (length pop1)))) (mk_n p) pop1 pop' /\ fit' = map (fun m => snd (mo_i m)) (pop' : list monkey) /\
  get_best (map (fun m => fst (mo_i m)) (pop' : list monkey)) fit' (Some xb) fxb = Ret (xb', fxb').
Proof.
  intros F E p v2 pop fit xb fxb u pop' fit' xb' fxb' u' wd wd' C Ex. set (l := log_of (c_opt C) (w_h wd)).
  apply (tr_sound _ E _ (fun s' l' => let '(pop', fit', xb', fxb', u') := s' in
    exists pop1, looped (monkey_step F E p v2 xb) (length (pop : list monkey)) pop pop1 l l' /\ crowned (fint F (fmul F (mk_rate p) (fnat F (length pop1)))) (mk_n p) pop1 pop' /\ fit' = map (fun m => snd (mo_i m)) (pop' : list monkey) /\
    get_best (map (fun m => fst (mo_i m)) (pop' : list monkey)) fit' (Some xb) fxb = Ret (xb', fxb')) _ _ _) in Ex; [exact Ex|]. fold C l. clear.
  cbn [a_iter mke12]. unfold mke_iter. apply wp_bind. apply w_looped with (R := monkey_step F E p v2 xb). { intros i s l0 Q _ HQ. apply w_monkey. exact HQ. }
  intros pop1 l1 H1. apply wp_bind. apply w_crown. intros pop2 H2. apply wp_bind. apply w_lift_tr. intros [x f] G. apply w_done. exists pop1. auto.
Qed.
(** the personal bests never get worse *)
Theorem C86_personal : forall F E p v2 xb i pop pop' l l', monkey_step F E p v2 xb i pop pop' l l' ->
  forall j m, nth_error pop j = Some m -> snd (mo_pb m) <> NaN -> exists m', nth_error pop' j = Some m' /\ fleb (snd (mo_pb m')) (snd (mo_pb m)) = true.
Proof.
  intros F E p v2 xb i pop pop' l l' (m0 & m1 & E0 & (H1 & _) & (R1 & R2 & R3)) j m Ej Nm. destruct (Nat.eq_dec j i) as [->|Hne].
  - rewrite E0 in Ej. injection Ej as <-. eexists. split; [exact R2|]. destruct (fltb _ _) eqn:Q; cbn [mo_pb]; [apply fltb_fleb; auto|rewrite H1; apply fleb_refl; auto].
  - rewrite <- (R3 j Hne) in Ej. exists m. split; auto. apply fleb_refl; auto.
Qed.

(** ** C87: MonkeyKingEvolution, version 3 *)
Lemma mke3_all : forall F E p (X : exn -> Prop), let C := e_cfg E in
  cfg_ok C -> no_nan (e_prob E) -> repair_ok E -> 0 < mk_n p -> 0 < mk_c p * c_dim C \/ X EValue ->
  best_run_x X E (mke3 F C p) /\ sizes_ok (fun n => n = mk_n p) E (mke3 F C p).
Proof.
  intros F E p X C HC Hn Hr Hp Hc.
  refine (all2_c (inside C) X (fun n => n = mk_n p) E (mke3 F C p) (fun pop fit xb fxb _ l => PopInv C (mk_n p) pop fit xb fxb l) HC Hn Hr _ _ _).
  - unfold init_c. cbn [a_init a_coords mke3]. unfold plain_init. apply wp_bind. apply w_default_numpy_init; auto.
    intros pop fit l H1 H2 H3. apply w_done. eapply pi_first; eauto.
  - apply mke3_iter_c; auto.
  - intros pop fit xb fxb st l [P1 P2 P3 P4 P5 P6]. auto.
Qed.
Theorem C87_mke3_any : forall F E p, let C := e_cfg E in
  cfg_ok C -> no_nan (e_prob E) -> repair_ok E -> 0 < mk_n p ->
  best_run_x (eq EValue) E (mke3 F C p) /\ sizes_ok (fun n => n = mk_n p) E (mke3 F C p).
Proof. intros F E p C HC Hn Hr Hp. apply (mke3_all F E p (eq EValue)); auto. Qed.
Theorem C87_mke3 : forall F E p, let C := e_cfg E in
  cfg_ok C -> no_nan (e_prob E) -> repair_ok E -> 0 < mk_n p -> 0 < mk_c p -> 0 < c_dim C -> best_run E (mke3 F C p).
Proof. intros F E p C HC Hn Hr Hp Hc Hd. apply (mke3_all F E p (fun _ => False)); auto. left. apply Nat.mul_pos_pos; auto. Qed.
(** a row of the mask: k + 1 ones and d - k - 1 zeros in any order *)
Definition masked (F : fops) (d k : nat) (m : vec) : Prop := Permutation (repeat (flit F 1 1) (S k) ++ repeat (flit F 0 1) (d - S k)) m.
Lemma map_const_rep : forall A B (a : A) (l : list B), map (fun _ => a) l = repeat a (length l).
Proof. intros A B a l. induction l; simpl; congruence. Qed.
Lemma nths_seq : forall A (d : A) l, map (fun k => nth k l d) (seq 0 (length l)) = l.
Proof.
  intros A d l. apply nth_ext with (d := nth 0 l d) (d' := d); [rewrite map_length, seq_length; auto|]. intros n H. rewrite map_length, seq_length in H.
  rewrite (map_nth (fun k => nth k l d) _ 0), seq_nth; auto.
Qed.
Lemma mask_eq : forall F d i, i mod d < d -> mke_mask F d i = repeat (flit F 1 1) (S (i mod d)) ++ repeat (flit F 0 1) (d - S (i mod d)).
Proof.
  intros F d i H. unfold mke_mask. set (k := i mod d) in *. clearbody k. replace (seq 0 d) with (seq 0 (S k) ++ seq (S k) (d - S k)) by (rewrite <- seq_app; f_equal; lia).
  rewrite map_app. f_equal.
  - rewrite <- (seq_length (S k) 0) at 2. rewrite <- map_const_rep. apply map_ext_in. intros j Hj. apply in_seq in Hj. destruct (Nat.leb_spec j k); auto; lia.
  - rewrite <- (seq_length (d - S k) (S k)) at 2. rewrite <- map_const_rep. apply map_ext_in. intros j Hj. apply in_seq in Hj. destruct (Nat.leb_spec j k); auto; lia.
Qed.
Lemma w_shuffle_tr : forall E row (Q : vec -> elog -> Prop) l, (forall m, Permutation row m -> Q m l) -> wp (K_tr E) (shuffle row) Q l.
Proof.
  intros E row Q l HQ. unfold shuffle. apply wp_bind. apply w_permutation. intros pi L1 ND Hr.
  apply (w_mapM_tr _ _ _ _ (fun k c => nth_error row k = Some c)). { intros k Q0 l0 Hk H0. apply w_nthP_tr. exact H0. }
  intros ys Hy. apply HQ. assert (ys = map (fun k => nth k row NaN) pi) as ->.
  { clear -Hy. induction Hy as [|k c pi ys H _ IH]; simpl; auto. f_equal; auto. symmetry. apply nth_error_nth. auto. }
  assert (Pp : Permutation (seq 0 (length row)) pi).
  { symmetry. apply NoDup_Permutation_bis; auto. - rewrite seq_length; lia. - intros k Hk. apply in_seq. specialize (Hr k Hk). lia. }
  apply (Permutation_map (fun k => nth k row NaN)) in Pp. rewrite (nths_seq _ NaN row) in Pp. exact Pp.
Qed.
(** the points around the best one, the mixture of every monkey with the best point, and the replacement of the worst monkey *)
Definition mke3_eq (F : fops) (E : env) (p : mke_par) (pop : list vec) (xb : vec) (fxb : num) (pop' : list vec) (fit' : list num) (xb' : vec) (fxb' : num) (l l' : elog) : Prop :=
  let d := c_dim (e_cfg E) in let one := flit F 1 1 in let zero := flit F 0 1 in
  exists as_ bs gb gf xb1 fxb1 ms pop1 fit1 l1 iw fw ib g y,
    length as_ = mk_c p * d /\ length bs = mk_c p * d /\ Forall (fun a => In a pop) as_ /\ Forall (fun b => In b pop) bs /\
    Forall2 (repaired E) (map2 (fun a b => vsub F (vadd F xb (vscale F (mk_fc p) a)) b) as_ bs) gb /\ evaluated_all gb gf l l1 /\ get_best gb gf (Some xb) fxb = Ret (xb1, fxb1) /\
    length ms = mk_n p /\ (forall i m, nth_error ms i = Some m -> masked F d (i mod d) m) /\
    Forall2 (repaired E) (map2 (fun m x => vadd F (vmul F m x) (vmul F (map (fun c => if feqb c one then zero else one) m) xb1)) ms pop) pop1 /\
    evaluated_all pop1 fit1 l1 l' /\ get_best pop1 fit1 (Some xb1) fxb1 = Ret (xb', fxb') /\
    nth_error fit1 iw = Some fw /\ (~ In NaN fit1 -> first_max fit1 iw fw) /\ nth_error gf ib = Some g /\ nth_error gb ib = Some y /\ (~ In NaN gf -> first_min gf ib g) /\
    if fleb g fw then row_set pop1 pop' iw y /\ row_set fit1 fit' iw g else pop' = pop1 /\ fit' = fit1.
Lemma argmax_first : forall cf b g, argmax cf = Some b -> nth_error cf b = Some g -> ~ In NaN cf -> first_max cf b g.
Proof.
  intros cf b g H1 H2 Hn. destruct (argmax_spec cf) as (b' & m & E & M); [intros ->; discriminate|apply Forall_forall; intros v Hv ->; auto|]. rewrite H1 in E. injection E as <-.
  assert (M1 := proj1 M). rewrite H2 in M1. injection M1 as <-. exact M.
Qed.
Lemma f2len : forall A B (R : A -> B -> Prop) xs ys, Forall2 R xs ys -> length xs = length ys.
Proof. intros A B R xs ys H. induction H; simpl; congruence. Qed.
Theorem C87_step : forall F E p pop fit xb fxb u pop' fit' xb' fxb' u' wd wd', let C := e_cfg E in
  exec E (a_iter (mke3 F C p) pop fit xb fxb u) wd = (Ret (pop', fit', xb', fxb', u'), wd') ->
  mke3_eq F E p pop xb fxb pop' fit' xb' fxb' (log_of (c_opt C) (w_h wd)) (log_of (c_opt C) (w_h wd')).
Proof.
  intros F E p pop fit xb fxb u pop' fit' xb' fxb' u' wd wd' C Ex. set (l := log_of (c_opt C) (w_h wd)).
  apply (tr_sound _ E _ (fun s' l' => let '(pop', fit', xb', fxb', u') := s' in mke3_eq F E p pop xb fxb pop' fit' xb' fxb' l l') _ _ _) in Ex; [exact Ex|]. fold C l. clear.
  cbn [a_iter mke3]. unfold mke3_iter. cbv zeta. apply wp_bind. apply wp_conseq0 with (Q := fun rs l' => l' = l /\ length rs = mk_c p * c_dim C).
  { apply (wp_repeatM _ _ _ (fun _ l' => l' = l)); [auto|]. intros bs l' _ ->. apply w_integers_tr. auto. }
  intros i1 l' [-> L1]. apply wp_bind. apply (w_mapM_tr _ _ _ _ (fun k c => In c pop)). { intros k Q0 l0 Hk H0. apply w_nthP_tr. intros a Ea. apply H0. eapply nth_error_In; eauto. }
  intros as_ Ha. apply wp_bind. apply wp_conseq0 with (Q := fun rs l' => l' = l /\ length rs = mk_c p * c_dim C).
  { apply (wp_repeatM _ _ _ (fun _ l' => l' = l)); [auto|]. intros bs l' _ ->. apply w_integers_tr. auto. }
  intros i2 l' [-> L2]. apply wp_bind. apply (w_mapM_tr _ _ _ _ (fun k c => In c pop)). { intros k Q0 l0 Hk H0. apply w_nthP_tr. intros a Ea. apply H0. eapply nth_error_In; eauto. }
  intros bs Hb. assert (La := f2len _ _ _ _ _ Ha). assert (Lb := f2len _ _ _ _ _ Hb). rewrite L1 in La. rewrite L2 in Lb.
  apply wp_bind. apply w_repair_all_tr. intros gb Hg. apply wp_bind. apply w_eval_all_tr. intros gf l1 He. apply wp_bind. apply w_lift_tr. intros [xb1 fxb1] G1.
  apply wp_bind. apply (w_mapM_tr _ _ _ _ (fun i m => Permutation (mke_mask F (c_dim C) i) m)). { intros k Q0 l0 Hk H0. apply w_shuffle_tr. exact H0. }
  intros ms Hm. assert (Lm := f2len _ _ _ _ _ Hm). rewrite seq_length in Lm. apply wp_bind. apply w_repair_all_tr. intros pop1 Hp1. apply wp_bind. apply w_eval_all_tr. intros fit1 l2 He2. apply wp_bind. apply w_lift_tr. intros [xb2 fxb2] G2.
  destruct (argmax fit1) as [iw|] eqn:Ew; [|exact I]. destruct (argmin gf) as [ib|] eqn:Eb; [|exact I].
  apply wp_bind. apply w_nthP_tr. intros fw Ef. apply wp_bind. apply w_nthP_tr. intros g Eg. apply wp_bind. apply w_nthP_tr. intros y Ey.
  assert (Hd : c_dim C <> 0).
  { intros E0. rewrite E0, Nat.mul_0_r in La. destruct as_; [|discriminate]. cbn [map2] in Hg. inversion Hg; subst. destruct ib; discriminate. }
  assert (HM : forall i m, nth_error ms i = Some m -> masked F (c_dim C) (i mod c_dim C) m).
  { intros i m Ei. assert (Hi : i < mk_n p) by (rewrite Lm; apply nth_error_Some; congruence). assert (Es : nth_error (seq 0 (mk_n p)) i = Some i) by (rewrite nth_error_nth' with (d := 0), seq_nth; auto; rewrite seq_length; auto).
    assert (G := Forall2_nth _ _ _ _ _ _ _ _ Hm Es Ei). unfold masked. rewrite <- mask_eq; auto. apply Nat.mod_upper_bound. auto. }
  assert (HA : Forall (fun a => In a pop) as_) by (clear -Ha; induction Ha; auto). assert (HB : Forall (fun a => In a pop) bs) by (clear -Hb; induction Hb; auto).
  assert (S0 : forall pop2 fit2, (if fleb g fw then row_set pop1 pop2 iw y /\ row_set fit1 fit2 iw g else pop2 = pop1 /\ fit2 = fit1) -> mke3_eq F E p pop xb fxb pop2 fit2 xb2 fxb2 l l2).
  { intros pop2 fit2 HI. exists as_, bs, gb, gf, xb1, fxb1, ms, pop1, fit1, l1, iw, fw, ib, g, y. repeat (split; [solve [auto]|]).
    split; [apply argmax_first; auto|]. split; auto. split; auto. split; [apply argmin_first; auto|]. exact HI. }
  destruct (fleb g fw).
  - apply wp_bind. apply w_setP_tr. intros R1. apply wp_bind. apply w_setP_tr. intros R2. apply w_done. apply S0. auto.
  - apply w_done. apply S0. auto.
Qed.

(** ** C88: FishSchoolSearch *)
Theorem C88_fss : forall F E p, let C := e_cfg E in
  cfg_ok C -> no_nan (e_prob E) -> repair_ok E -> 0 < fs_n p ->
  best_run E (fss F C p) /\ sizes_ok (fun n => n = fs_n p) E (fss F C p).
Proof.
  intros F E p C HC Hn Hr Hp.
  refine (all2_c (inside C) (fun _ => False) (fun n => n = fs_n p) E (fss F C p) (FssInv C p) HC Hn Hr _ _ _).
  - apply fss_init_c; auto.
  - apply fss_iter_c; auto.
  - intros pop fit xb fxb st l [P1 P2 P3 P4 P5 P6 P7 P8]. rewrite P2. unfold fi_fits. rewrite map_length. auto.
Qed.
(** every fish is in the box with its value, and no fish is better than the best point *)
Theorem C88_fish : forall F E p, let C := e_cfg E in
  cfg_ok C -> no_nan (e_prob E) -> repair_ok E -> 0 < fs_n p ->
  forall s w, reached E (fss F C p) s w -> let l := log_of (c_opt C) (w_h w) in
  r_fit s = map (fun a => snd (fi_i a)) (r_pop s : list fish) /\
  Forall (fun a => inside C (fst (fi_i a)) /\ Seen l (fst (fi_i a)) (snd (fi_i a)) /\ fleb (r_fxb s) (snd (fi_i a)) = true) (r_pop s : list fish).
Proof.
  intros F E p C HC Hn Hr Hp s w H l.
  assert (G := reach_c (inside C) (fun _ => False) E (fss F C p) (FssInv C p) Hn Hr (fss_init_c F C p _ HC Hp) (fss_iter_c F C p _ HC Hp) s w H). destruct G as [P1 P2 P3 P4 P5 P6 P7 P8].
  split; auto. rewrite Forall_forall in *. intros a Ha. destruct (P3 a Ha) as [? ?]. auto.
Qed.
(** one individual movement *)
Definition fish_moves (F : fops) (E : env) (step : vec) (i : nat) (s s' : list fish * (vec * num)) (l l' : elog) : Prop :=
  let d := c_dim (e_cfg E) in
  exists a u y f, nth_error (fst s) i = Some a /\ comps d u (fun _ c => fleb (flit F (-1) 1) (flit F 1 1) = true -> fleb (flit F (-1) 1) c = true /\ fleb c (flit F 1 1) = true) /\
    repaired E (vadd F (fst (fi_i a)) (vmul F step u)) y /\ evaluated y f l l' /\
    if fltb f (snd (fi_i a)) then
      row_set (fst s) (fst s') i (Fish (y, f) (fi_w a) (vsub F y (fst (fi_i a))) (fabs F (fsub F f (snd (fi_i a))))) /\ snd s' = if fleb f (snd (snd s)) then (y, f) else snd s
    else row_set (fst s) (fst s') i (Fish (fi_i a) (fi_w a) (repeat (flit F 0 1) d) (flit F 0 1)) /\ snd s' = snd s.
(** one volitive movement: away from the centre or towards it *)
Definition fish_wills (F : fops) (E : env) (step center : vec) (heavier : bool) (i : nat) (s s' : list fish * (vec * num)) (l l' : elog) : Prop :=
  let d := c_dim (e_cfg E) in
  exists a u y f, nth_error (fst s) i = Some a /\ comps d u (fun _ c => fleb (flit F 0 1) (flit F 1 1) = true -> fleb (flit F 0 1) c = true /\ fleb c (flit F 1 1) = true) /\
    (let m := vmul F (vmul F (vsub F (fst (fi_i a)) center) step) u in repaired E (if heavier then vsub F (fst (fi_i a)) m else vadd F (fst (fi_i a)) m) y) /\ evaluated y f l l' /\
    row_set (fst s) (fst s') i (Fish (y, f) (fi_w a) (fi_dpos a) (fi_dcost a)) /\ snd s' = if fleb f (snd (snd s)) then (y, f) else snd s.
Lemma w_fish_moves : forall F E step s i (Q : list fish * (vec * num) -> elog -> Prop) l,
  (forall s' l', fish_moves F E step i s s' l l' -> Q s' l') -> wp (K_tr E) (fss_individual F (e_cfg E) step s i) Q l.
Proof.
  intros F E step s i Q l HQ. unfold fss_individual. cbv zeta. apply wp_bind. apply w_nthP_tr. intros a Ea. apply wp_bind.
  apply AlgEvoProofs.w_uniform_vec_len with (n := c_dim (e_cfg E)); try apply repeat_length. intros u [Lu Hu]. apply wp_bind. apply w_repair_tr. intros y Hy. apply wp_bind. apply w_eval_tr. intros f l' He.
  assert (Cu : comps (c_dim (e_cfg E)) u (fun _ c => fleb (flit F (-1) 1) (flit F 1 1) = true -> fleb (flit F (-1) 1) c = true /\ fleb c (flit F 1 1) = true)).
  { split; auto. intros j Hj. specialize (Hu j Hj). rewrite !nth_rep in Hu by auto. exact Hu. }
  destruct (fltb f (snd (fi_i a))) eqn:Qf.
  - unfold get_best1. destruct (fleb f (snd (snd s))) eqn:Qb; cbn [lift bind]; apply wp_bind; apply w_setP_tr; intros R1; apply w_done; apply HQ; exists a, u, y, f; rewrite Qf; cbn [fst snd]; rewrite Qb; repeat (split; [solve [auto]|]); auto.
    symmetry. apply surjective_pairing.
  - apply wp_bind. apply w_setP_tr. intros R1. apply w_done. apply HQ. exists a, u, y, f. rewrite Qf. cbn [fst snd]. auto 8.
Qed.
Lemma w_fish_wills : forall F E step center h s i (Q : list fish * (vec * num) -> elog -> Prop) l,
  (forall s' l', fish_wills F E step center h i s s' l l' -> Q s' l') -> wp (K_tr E) (fss_volitive F (e_cfg E) step center h s i) Q l.
Proof.
  intros F E step center h s i Q l HQ. unfold fss_volitive. cbv zeta. apply wp_bind. apply w_nthP_tr. intros a Ea. apply wp_bind.
  apply AlgEvoProofs.w_uniform_vec_len with (n := c_dim (e_cfg E)); try apply repeat_length. intros u [Lu Hu]. apply wp_bind. apply w_ind_evaluate_tr. intros y f l' Hy He.
  assert (Cu : comps (c_dim (e_cfg E)) u (fun _ c => fleb (flit F 0 1) (flit F 1 1) = true -> fleb (flit F 0 1) c = true /\ fleb c (flit F 1 1) = true)).
  { split; auto. intros j Hj. specialize (Hu j Hj). rewrite !nth_rep in Hu by auto. exact Hu. }
  apply wp_bind. apply w_setP_tr. intros R1. cbn [fst snd]. unfold get_best1. destruct (fleb f (snd (snd s))) eqn:Qb; cbn [lift bind]; apply w_done; apply HQ; exists a, u, y, f; cbn [fst snd]; rewrite Qb; repeat (split; [solve [auto]|]); auto.
  symmetry. apply surjective_pairing.
Qed.
(** feeding: the share of the best improvement is added to the weight, which is then limited; nothing else changes *)
Definition fish_fed (F : fops) (p : fss_par) (s s' : list fish) : Prop :=
  exists m, In m (map fi_dcost s) /\ (~ In NaN (map fi_dcost s) -> forall c, In c (map fi_dcost s) -> fleb c m = true) /\
  Forall2 (fun a a' => fi_i a' = fi_i a /\ fi_dpos a' = fi_dpos a /\ fi_dcost a' = fi_dcost a /\
    fi_w a' = limit1 (if feqb m (flit F 0 1) then fi_w a else fadd F (fi_w a) (fdiv F (fi_dcost a) m)) (fs_minw p) (fs_wscale p)) s s'.
Lemma fold_max : forall l a, let m := fold_left fmaxb l a in In m (a :: l) /\ (~ In NaN (a :: l) -> forall c, In c (a :: l) -> fleb c m = true).
Proof.
  induction l as [|b l IH]; intros a m; subst m; cbn [fold_left].
  - split; [left; auto|]. intros Hn c [<-|[]]. apply fleb_refl. intros ->. apply Hn. left. auto.
  - destruct (IH (fmaxb a b)) as [I1 I2]. split.
    + destruct I1 as [<-|I1]; [|right; right; auto]. unfold fmaxb. destruct (fltb a b); [right; left|left]; auto.
    + intros Hn. assert (Na : a <> NaN) by (intros ->; apply Hn; left; auto). assert (Nb : b <> NaN) by (intros ->; apply Hn; right; left; auto).
      assert (N2 : ~ In NaN (fmaxb a b :: l)) by (intros [H|H]; [unfold fmaxb in H; destruct (fltb a b); congruence|apply Hn; right; right; auto]).
      specialize (I2 N2). assert (H0 := I2 _ (or_introl eq_refl)). intros c [<-|[<-|Hc]]; [| |apply I2; right; auto].
      * apply fleb_trans with (fmaxb a b); auto. unfold fmaxb. destruct (fltb a b) eqn:Q; [apply fltb_fleb; auto|apply fleb_refl; auto].
      * apply fleb_trans with (fmaxb a b); auto. unfold fmaxb. destruct (fltb a b) eqn:Q; [apply fleb_refl; auto|apply fltb_false_fleb; auto].
Qed.
Lemma w_fed : forall F E p s (Q : list fish -> elog -> Prop) l, (forall s', fish_fed F p s s' -> Q s' l) -> wp (K_tr E) (fss_feed F p s) Q l.
Proof.
  intros F E p s Q l HQ. unfold fss_feed. destruct (py_max (map fi_dcost s)) as [m|] eqn:Em; [|exact I]. apply w_done. apply HQ. exists m.
  assert (In m (map fi_dcost s) /\ (~ In NaN (map fi_dcost s) -> forall c, In c (map fi_dcost s) -> fleb c m = true)) as [H1 H2].
  { destruct (map fi_dcost s) as [|a r]; [discriminate|]. cbn [py_max] in Em. injection Em as <-. apply fold_max. }
  split; auto. split; auto. clear. induction s; simpl; constructor; auto.
Qed.
(** the common drift: the sum of the last displacements weighted with the improvements, over the sum of the improvements *)
Definition drifted (F : fops) (E : env) (s s' : list fish) : Prop :=
  let d := c_dim (e_cfg E) in
  let t := fold_left (vadd F) (map (fun a => vscale F (fi_dcost a) (fi_dpos a)) s) (repeat (flit F 0 1) d) in
  let density := vsum F (map fi_dcost s) in
  let e := if feqb density (flit F 0 1) then t else map (fun c => fdiv F c density) t in
  Forall2 (fun a a' => repaired E (vadd F (fst (fi_i a)) e) (fst (fi_i a')) /\ snd (fi_i a') = snd (fi_i a) /\ fi_w a' = fi_w a /\ fi_dpos a' = fi_dpos a /\ fi_dcost a' = fi_dcost a) s s'.
(** the steps after iteration [it]: the factor "range" of the initial steps is gone *)
Definition fss_step_at (F : fops) (C : cfg) (init final : num) (it : nat) : vec :=
  repeat (fsub F init (fdiv F (fmul F (fnat F (S it)) (fsub F init final)) (AlgBasic.flim F (c_max_iters C)))) (c_dim C).
Definition fss_eq (F : fops) (E : env) (p : fss_par) (pop : list fish) (xb : vec) (fxb : num) (st : fss_st) (pop' : list fish) (xb' : vec) (fxb' : num) (l l' : elog) : Prop :=
  let d := c_dim (e_cfg E) in
  exists s1 b1 s2 s3 l1, looped (fish_moves F E (st_ind st)) (length pop) (pop, (xb, fxb)) (s1, b1) l l1 /\ fish_fed F p s1 s2 /\ drifted F E s2 s3 /\
  let w := vsum F (map fi_w s3) in
  let center := map (fun c => fdiv F c w) (fold_left (vadd F) (map (fun a => vscaler F (fst (fi_i a)) (fi_w a)) s3) (repeat (flit F 0 1) d)) in
  looped (fish_wills F E (st_vol st) center (fltb (st_weight st) w)) (length s3) (s3, b1) (pop', (xb', fxb')) l1 l'.
Theorem C88_step : forall F E p pop fit xb fxb st pop' fit' xb' fxb' st' wd wd', let C := e_cfg E in
  exec E (a_iter (fss F C p) pop fit xb fxb st) wd = (Ret (pop', fit', xb', fxb', st'), wd') ->
  fss_eq F E p pop xb fxb st pop' xb' fxb' (log_of (c_opt C) (w_h wd)) (log_of (c_opt C) (w_h wd')) /\ fit' = map (fun a => snd (fi_i a)) (pop' : list fish) /\
  exists it, st_ind st' = fss_step_at F C (fs_ii p) (fs_if p) it /\ st_vol st' = fss_step_at F C (fs_vi p) (fs_vf p) it /\ st_weight st' = st_weight st.
Proof.
  intros F E p pop fit xb fxb st pop' fit' xb' fxb' st' wd wd' C Ex. set (l := log_of (c_opt C) (w_h wd)).
  apply (tr_sound _ E _ (fun s' l' => let '(pop', fit', xb', fxb', st') := s' in
    fss_eq F E p pop xb fxb st pop' xb' fxb' l l' /\ fit' = map (fun a => snd (fi_i a)) (pop' : list fish) /\
    exists it, st_ind st' = fss_step_at F C (fs_ii p) (fs_if p) it /\ st_vol st' = fss_step_at F C (fs_vi p) (fs_vf p) it /\ st_weight st' = st_weight st) _ _ _) in Ex; [exact Ex|]. fold C l. clear.
  cbn [a_iter fss]. unfold fss_iter. cbv zeta. apply wp_bind. apply w_looped with (R := fish_moves F E (st_ind st)). { intros i s l0 Q _ HQ. apply w_fish_moves. exact HQ. }
  intros [s1 b1] l1 H1. apply wp_bind. apply w_fed. intros s2 H2. apply wp_bind. unfold fss_instinctive.
  apply (w_mapM_tr _ _ _ _ (fun a a' => repaired E (vadd F (fst (fi_i a)) (fss_drift F (c_dim C) s2)) (fst (fi_i a')) /\ snd (fi_i a') = snd (fi_i a) /\ fi_w a' = fi_w a /\ fi_dpos a' = fi_dpos a /\ fi_dcost a' = fi_dcost a)).
  { intros a Q0 l0 _ H0. apply wp_bind. apply w_repair_tr. intros y Hy. apply w_done. apply H0. auto 8. }
  intros s3 H3. apply wp_bind. eapply w_looped. { intros i s l0 Q _ HQ. apply w_fish_wills. exact HQ. }
  intros [s4 [x4 f4]] l4 H4. apply wp_bind. apply w_view. intros v. apply w_done. split; [|split; auto].
  - exists s1, b1, s2, s3, l1. split; auto.
  - exists (v_iters v). auto.
Qed.
(** the comparison weight is never updated and stays what setup computed *)
Theorem C88_steps : forall F E p, let C := e_cfg E in
  forall s w, reached E (fss F C p) s w ->
  st_weight (r_par s) = fdiv F (fmul F (fnat F (fs_n p)) (fs_wscale p)) (flit F 2 1) /\
  ((st_ind (r_par s) = vscale F (fs_ii p) (vsub F (c_upper C) (c_lower C)) /\ st_vol (r_par s) = vscale F (fs_vi p) (vsub F (c_upper C) (c_lower C))) \/
   exists it, st_ind (r_par s) = fss_step_at F C (fs_ii p) (fs_if p) it /\ st_vol (r_par s) = fss_step_at F C (fs_vi p) (fs_vf p) it) /\
  Forall (fun a => fi_w a = fdiv F (fs_wscale p) (flit F 2 1) \/ exists x, fi_w a = limit1 x (fs_minw p) (fs_wscale p)) (r_pop s : list fish).
Proof.
  intros F E p C s w H. induction H as [pos pop fit par w xb fxb Ex G|s w pop fit xb fxb par w' H IH Ex].
  - apply (tr_sound _ E _ (fun s' l' => let '(pop, fit, st) := s' in
      st = FSSSt (vscale F (fs_ii p) (vsub F (c_upper C) (c_lower C))) (vscale F (fs_vi p) (vsub F (c_upper C) (c_lower C))) (fdiv F (fmul F (fnat F (fs_n p)) (fs_wscale p)) (flit F 2 1)) /\
      Forall (fun a => fi_w a = fdiv F (fs_wscale p) (flit F 2 1)) (pop : list fish)) _ _ _) in Ex.
    + destruct Ex as [E1 E2]. cbn [r_par r_pop]. rewrite E1. cbn [st_weight st_ind st_vol]. split; auto. split; auto. eapply Forall_impl; [|exact E2]. auto.
    + cbn [a_init fss]. unfold fss_init. cbv zeta. apply wp_bind. eapply wp_conseq0; [apply wp_any|]. intros [q fq] l0 _. apply w_done. split; auto. apply Forall_map. apply Forall_forall. auto.
  - apply C88_step in Ex. destruct Ex as (Eq & _ & it & S1 & S2 & S3). destruct IH as (I1 & I2 & I3). cbn [r_par r_pop]. split; [congruence|]. split; [right; exists it; auto|].
    destruct Eq as (s1 & b1 & s2 & s3 & l1 & H1 & H2 & H3 & H4). destruct H2 as (m & _ & _ & H2).
    assert (W2 : Forall (fun a => exists x, fi_w a = limit1 x (fs_minw p) (fs_wscale p)) s2) by (clear -H2; induction H2 as [|a a' s s' (_ & _ & _ & E4) _ IH]; constructor; eauto).
    assert (W3 : Forall (fun a => exists x, fi_w a = limit1 x (fs_minw p) (fs_wscale p)) s3).
    { clear -H3 W2. unfold drifted in H3. cbv zeta in H3. revert H3. generalize (if feqb (vsum F (map fi_dcost s2)) (flit F 0 1) then fold_left (vadd F) (map (fun a => vscale F (fi_dcost a) (fi_dpos a)) s2) (repeat (flit F 0 1) (c_dim (e_cfg E))) else map (fun c => fdiv F c (vsum F (map fi_dcost s2))) (fold_left (vadd F) (map (fun a => vscale F (fi_dcost a) (fi_dpos a)) s2) (repeat (flit F 0 1) (c_dim (e_cfg E))))). intros e H3. induction H3 as [|a a' s s' (_ & _ & E3 & _) _ IH]; [constructor|]. inversion W2 as [|? ? W21 W22]; subst. constructor; [rewrite E3; auto|auto]. }
    cbv zeta in H4.
    assert (G : forall R n s s' l l', looped R n s s' l l' -> (forall i s s' l l', R i s s' l l' -> exists a n, nth_error (fst s) i = Some a /\ row_set (fst s) (fst s') i n /\ fi_w n = fi_w a) ->
      Forall (fun a => exists x, fi_w a = limit1 x (fs_minw p) (fs_wscale p)) (fst s) -> Forall (fun a => exists x, fi_w a = limit1 x (fs_minw p) (fs_wscale p)) (fst (s' : list fish * (vec * num)))).
    { clear. intros R n s s' l l' H HR. induction H as [|i s s1 s2 l l1 l2 H IH HS]; auto. intros H0. specialize (IH H0). destruct (HR _ _ _ _ _ HS) as (a & n & N1 & (R1 & R2 & R3) & N3).
      apply Forall_forall. intros b Hb. apply In_nth_error in Hb. destruct Hb as (j & Ej). rewrite Forall_forall in IH. destruct (Nat.eq_dec j i) as [->|Hne].
      - rewrite R2 in Ej. injection Ej as <-. rewrite N3. apply IH. eapply nth_error_In; eauto.
      - rewrite (R3 j Hne) in Ej. apply IH. eapply nth_error_In; eauto. }
    apply G in H4; auto.
    + cbn [fst] in H4. eapply Forall_impl; [|exact H4]. auto.
    + intros i t t' u u' (a & v & y & f & N1 & _ & _ & _ & N4 & _). exists a. eexists. split; [exact N1|]. split; [exact N4|]. reflexivity.
Qed.
(** a weight that has been limited is NaN or lies between the two limits *)
Theorem C88_weights : forall F E p, let C := e_cfg E in fleb (fs_minw p) (fs_wscale p) = true ->
  forall s w, reached E (fss F C p) s w ->
  Forall (fun a => fi_w a = fdiv F (fs_wscale p) (flit F 2 1) \/ fi_w a = NaN \/ (fleb (fs_minw p) (fi_w a) = true /\ fleb (fi_w a) (fs_wscale p) = true)) (r_pop s : list fish).
Proof.
  intros F E p C Hw s w H. destruct (C88_steps F E p s w H) as (_ & _ & G). eapply Forall_impl; [|exact G]. intros a [Ha|(x & ->)]; auto. right.
  destruct (num_eqb x NaN) eqn:Q; [apply num_eqb_spec in Q; subst; left; apply PropertiesRepair.limit1_nan|].
  right. assert (Nx : x <> NaN) by (intros ->; discriminate). destruct (PropertiesRepair.limit1_spec x (fs_minw p) (fs_wscale p) Hw Nx) as (H1 & H2 & _). auto.
Qed.

(** ** Examples *)
Module ExBasic3.
  Definition C9 := Cfg Minimization 2 [N' 0; N' 0] [N' 1; N' 1] (LFin 13) (LFin 4) NInf.
  Definition E9 := exenv C9 lin.
  (** no limit on the iterations *)
  Definition CE := Cfg Minimization 2 [N' 0; N' 0] [N' 1; N' 1] (LFin 13) LInf NInf.
  Definition EE := exenv CE lin.
  (** more room *)
  Definition C3 := Cfg Minimization 2 [N' (-3); N' (-3)] [N' 3; N' 3] (LFin 40) (LFin 6) NInf.
  Definition E3 := exenv C3 sq.
  Definition CM := Cfg Maximization 2 [N' (-3); N' (-3)] [N' 3; N' 3] (LFin 13) (LFin 6) PInf.
  Definition EM := exenv CM lin.
  Definition dist (u v : vec) : num := euclidean fxx u v.
  Definition dist64 (u v : vec) : num := euclidean b64ops u v.
  Definition bp (n : nat) := BFOPar n 2 2 1 (q 3 4) (q 1 8) true (q 1 8) (q 1 4) (q 1 8) (q 1 1).
  Definition gp (k : gso_kind) := GSOPar 3 (q 5 1) (q 5 1) (q 3 8) (q 5 8) (q 1 8) (q 1 8) dist k.
  Definition mp := MKEPar 3 (q 3 4) (q 3 8) 2 (q 1 2).
  Definition fp := FSSPar 3 (q 1 8) (q 1 64) (q 1 64) (q 1 128) (q 1 1) (q 5000 1).
  Lemma C9_ok : cfg_ok C9.
  Proof. split; [reflexivity|]. split; [reflexivity|]. repeat constructor. Qed.
  Lemma CE_ok : cfg_ok CE.
  Proof. split; [reflexivity|]. split; [reflexivity|]. repeat constructor. Qed.
  Lemma C3_ok : cfg_ok C3.
  Proof. split; [reflexivity|]. split; [reflexivity|]. repeat constructor. Qed.
  Lemma CM_ok : cfg_ok CM.
  Proof. split; [reflexivity|]. split; [reflexivity|]. repeat constructor. Qed.
  Lemma C9_64 : bounds64 C9.
  Proof. unfold bounds64. cbn [C9 c_lower c_upper]. repeat constructor; try (vm_compute; reflexivity); eexists; split; vm_compute; reflexivity. Qed.
  Example hyps : cfg_ok C9 /\ no_nan (e_prob E9) /\ repair_ok E9 /\ 0 < c_dim C9 /\ 0 < bf_n (bp 4) /\ 0 < gw_n (gp GSO0) /\ 0 < mk_n mp /\ 2 <= mk_n mp /\ 0 < mk_c mp * c_dim C9 /\ 0 < mk_c mp /\
    (0 <= n_kings fxx mp <= Z.of_nat (mk_n mp))%Z /\ 0 < fs_n fp /\ fleb (fs_minw fp) (fs_wscale fp) = true /\ fadd fxx (flit fxx 0 1) (flit fxx 0 1) = flit fxx 0 1.
  Proof.
    split; [exact C9_ok|]. split; [apply lin_no_nan|]. split; [exact (clip_ok C9 lin fl8 in7 C9_ok)|].
    repeat (split; [vm_compute; solve [reflexivity|discriminate|lia|split; discriminate]|]). vm_compute. reflexivity.
  Qed.
  Example hyps3 : cfg_ok C3 /\ no_nan (e_prob E3) /\ repair_ok E3.
  Proof. split; [exact C3_ok|]. split; [apply sq_no_nan|]. exact (clip_ok C3 sq fl8 in7 C3_ok). Qed.
  Example hypsM : cfg_ok CM /\ no_nan (e_prob EM) /\ repair_ok EM.
  Proof. split; [exact CM_ok|]. split; [apply lin_no_nan|]. exact (clip_ok CM lin fl8 in7 CM_ok). Qed.
  Example hyps64 : fleb f0 (mk_rate mp) = true /\ fleb (mk_rate mp) (flit b64ops 1 1) = true /\ (Z.of_nat (mk_n mp) <= 2 ^ 53)%Z.
  Proof. split; [vm_compute; reflexivity|]. split; [vm_compute; reflexivity|]. vm_compute. discriminate. Qed.
  Example bfo_trace : trace E9 (bfo fxx C9 (bp 4) 0 0) 9 =
    (Ret ([40960; 8192], 57344), [[8192; 40960]; [24576; 24576]; [40960; 8192]; [57344; 57344]; [11312;
    56563]; [32440; 37683]; [49008; 16240]; [65536; 65208]; [26916; 59684]; [46341; 39669]; [60573; 27805];
    [65536; 65536]; [40960; 24576]])%Z.
  Proof. vm_compute. reflexivity. Qed.
  Example bfo_trace_max : trace EM (bfo fxx CM (bp 4) 0 0) 9 =
    (Ret ([17554; 87771], 193097), [[8192; 40960]; [24576; 24576]; [40960; 8192]; [57344; 57344]; [11312;
    56563]; [14433; 72167]; [17554; 87771]; [26561; 38477]; [28547; 52379]; [30533; 66280]; [52525; 19757];
    [64090; 31322]; [75655; 42887]])%Z.
  Proof. vm_compute. reflexivity. Qed.
  Example gso_trace : trace E9 (gso fxx C9 (q 3 1) (gp GSO0)) 9 =
    (Ret ([40960; 8192], 57344), [[8192; 40960]; [24576; 24576]; [40960; 8192]; [19114; 30037]; [35498;
    13653]; [30037; 19114]; [28051; 21100]; [35498; 13653]; [35211; 13940]; [34801; 14350]; [35498; 13653];
    [28675; 20476]; [35498; 13653]])%Z.
  Proof. vm_compute. reflexivity. Qed.
  Example gso_trace1 : trace E3 (gso fxx C3 (q 3 1) (gp GSO1)) 9 =
    (Ret ([24576; 24576], 18432), [[8192; 40960]; [24576; 24576]; [40960; 8192]; [19114; 30037]; [35498;
    13653]; [30037; 19114]; [28051; 21100]; [35498; 13653]; [35211; 13940]; [34801; 14350]; [35498; 13653];
    [28675; 20476]; [35498; 13653]; [34801; 14350]; [34401; 14750]; [35498; 13653]; [35497; 13654]; [35495;
    13656]; [35498; 13653]; [35498; 13653]; [35495; 13656]])%Z.
  Proof. vm_compute. reflexivity. Qed.
  Example gso_trace_max : trace EM (gso fxx CM (q 3 1) (gp (GSO2 (q 1 4)))) 9 =
    (Ret ([8192; 40960], 90112), [[8192; 40960]; [24576; 24576]; [40960; 8192]; [19114; 30037]; [35498;
    13653]; [30037; 19114]; [28051; 21100]; [35498; 13653]; [35211; 13940]; [34801; 14350]; [35498; 13653];
    [28675; 20476]; [35498; 13653]])%Z.
  Proof. vm_compute. reflexivity. Qed.
  Example mke1_trace : trace E9 (mke12 fxx C9 mp false) 9 =
    (Ret ([8192; 40960], 90112), [[8192; 40960]; [24576; 40960]; [57344; 57344]; [8192; 40960]; [23040;
    40960]; [60928; 65536]; [65536; 65536]; [65536; 60928]; [65536; 65536]; [8192; 40960]; [21648; 40960];
    [65536; 65536]; [65536; 65536]])%Z.
  Proof. vm_compute. reflexivity. Qed.
  Example mke2_trace : trace E9 (mke12 fxx C9 mp true) 9 =
    (Ret ([8192; 40960], 90112), [[8192; 40960]; [24576; 40960]; [57344; 57344]; [8192; 40960]; [23040;
    40960]; [40192; 49152]; [64768; 57344]; [65536; 65536]; [49920; 57344]; [32768; 49152]; [65536; 65536];
    [8192; 40960]; [35328; 45056]])%Z.
  Proof. vm_compute. reflexivity. Qed.
  Example mke2_trace_max : trace EM (mke12 fxx CM mp true) 9 =
    (Ret ([75008; 63232], 201472), [[8192; 40960]; [24576; 40960]; [57344; 57344]; [22016; 45568]; [27648;
    51712]; [42496; 54528]; [60160; 60416]; [75008; 63232]; [54528; 54272]; [39680; 51456]; [75008; 63232];
    [36920; 53848]; [46692; 56404]])%Z.
  Proof. vm_compute. reflexivity. Qed.
  Example mke3_trace : trace E9 (mke3 fxx C9 mp) 9 =
    (Ret ([18432; 0], 18432), [[8192; 40960]; [24576; 24576]; [40960; 8192]; [45056; 0]; [36864; 0]; [36864;
    0]; [36864; 0]; [36864; 40960]; [24576; 24576]; [40960; 0]; [12288; 12288]; [32768; 0]; [18432; 0]])%Z.
  Proof. vm_compute. reflexivity. Qed.
  Example mke3_trace64 : trace E3 (mke3 b64ops C3 mp) 9 =
    (Ret ([2560; (-2048)], 164), [[8192; 40960]; [24576; 24576]; [40960; 8192]; [28672; (-4096)]; [20480;
    4096]; [20480; 4096]; [20480; 4096]; [20480; 40960]; [24576; 24576]; [40960; 4096]; [12288; 12288];
    [16384; (-18432)]; [10240; 2048]; [16384; (-18432)]; [10240; 4096]; [24576; 24576]; [40960; 2048]; [12288;
    10240]; [(-9216); (-21504)]; [5120; 0]; [(-9216); (-21504)]; [5120; 4096]; [24576; 24576]; [10240; 0];
    [2560; (-4096)]; [5120; 0]; [2560; (-2048)]; [5120; 0]; [2560; 4096]; [5120; 0]; [10240; (-2048)]; [2560;
    (-6144)]; [(-1280); (-3072)]; [1280; (-4096)]; [(-1280); (-3072)]; [2560; 4096]; [5120; 0]; [2560;
    (-2048)]; [(-640); (-7680)]; [5120; 0]])%Z.
  Proof. vm_compute. reflexivity. Qed.
  Example fss_trace : trace E9 (fss fxx C9 fp) 9 =
    (Ret ([8036; 40856], 89750), [[8192; 40960]; [24576; 40960]; [57344; 57344]; [13312; 44032]; [29696;
    41984]; [64512; 58368]; [8149; 40885]; [24565; 40906]; [57504; 57450]; [13749; 46485]; [28565; 43306];
    [61504; 58250]; [8036; 40856]])%Z.
  Proof. vm_compute. reflexivity. Qed.
  Example fss_trace64 : trace E3 (fss b64ops C3 fp) 9 =
    (Ret ([7064; 40391], 25655), [[8192; 40960]; [24576; 40960]; [57344; 57344]; [38912; 59392]; [55296;
    47104]; [100352; 63488]; [7936; 40512]; [24512; 40640]; [58304; 57984]; [14058; 46634]; [28885; 43264];
    [62677; 58858]; [7816; 40480]; [24501; 40568]; [58354; 58087]; [9992; 44107]; [29579; 45645]; [61980;
    60263]; [7560; 40470]; [24473; 40539]; [58400; 58221]; [8136; 43350]; [26201; 43419]; [62432; 62253];
    [7395; 40462]; [24415; 40531]; [58524; 58273]; [7822; 43448]; [24842; 42664]; [59804; 60406]; [7247;
    40438]; [24378; 40523]; [58783; 58288]; [8079; 41270]; [24655; 42464]; [59060; 59675]; [7064; 40391];
    [24345; 40503]; [58946; 58302]])%Z.
  Proof. vm_compute. reflexivity. Qed.
  Example fss_trace_max : trace EM (fss fxx CM fp) 9 =
    (Ret ([138293; 75112], 288519), [[8192; 40960]; [24576; 40960]; [57344; 57344]; [38912; 59392]; [55296;
    47104]; [100352; 63488]; [74031; 70318]; [90223; 58814]; [133919; 74238]; [80154; 76440]; [94597; 61438];
    [138293; 75112]; [85599; 80605]])%Z.
  Proof. vm_compute. reflexivity. Qed.
  (** states for the step theorems *)
  Definition w0 := World (task_init C9) [] 0.
  Definition sv (x : vec) : list Z := map scl x.
  Definition shown {A B} (f : A -> B) (r : outcome A * world) : outcome B := match fst r with Ret a => Ret (f a) | Raise e => Raise e end.
  Definition pop : list vec := [[q 1 2; q 1 4]; [q 1 1; q 0 1]; [q 0 1; q 1 8]].
  Definition fit : list num := [q 3 4; q 1 1; q 1 8].
  Definition sm (m : monkey) := (sv (fst (mo_i m)), scl (snd (mo_i m)), (sv (fst (mo_pb m)), scl (snd (mo_pb m))), mo_king m).
  Definition sf (a : fish) := (sv (fst (fi_i a)), scl (snd (fi_i a)), scl (fi_w a), sv (fi_dpos a), scl (fi_dcost a)).
  Definition mpop : list monkey := [Monkey ([q 1 2; q 1 4], q 3 4) ([q 1 4; q 1 4], q 1 2) false; Monkey ([q 1 1; q 0 1], q 1 1) ([q 1 1; q 0 1], q 1 1) true; Monkey ([q 0 1; q 1 8], q 1 8) ([q 0 1; q 1 8], q 1 8) false].
  Definition fpop : list fish := [Fish ([q 1 2; q 1 4], q 3 4) (q 2500 1) [q 0 1; q 0 1] (q 0 1); Fish ([q 1 1; q 0 1], q 1 1) (q 5000 1) [q 1 4; q 0 1] (q 1 4); Fish ([q 0 1; q 1 8], q 1 8) (q 10 1) [q (-1) 4; q 1 8] (q 1 8)].
  Example bfo_shown : shown (fun r => let '(pop', fit', xb', _, st') := r in (map sv pop', sv fit', sv xb', sv (bs_cost st'), sv (bs_health st'), Z.of_nat (bs_k st'), Z.of_nat (bs_j st')))
    (exec E9 (a_iter (bfo fxx C9 (bp 4) 0 0) (pop ++ [[q 3 4; q 3 4]]) (fit ++ [q 3 2]) [q 0 1; q 1 8] (q 1 8) (BFOSt (repeat (q 0 1) 4) (repeat (q 1 1) 4) 0 0)) w0) =
    Ret ([[35888; 31987]; [65536; 13107]; [8048; 16240]; [62259; 57016]], [99864; 91750; 40528; 176291], [0;
    8192], [98340; 89708; 38489; 174117], [163876; 155244; 104025; 239653], 1, 0)%Z.
  Proof. vm_compute. reflexivity. Qed.
  Example bfo_shown2 : shown (fun r => let '(pop', fit', xb', _, st') := r in (map sv pop', sv fit', sv xb', sv (bs_cost st'), sv (bs_health st'), Z.of_nat (bs_k st'), Z.of_nat (bs_j st')))
    (exec E3 (a_iter (bfo fxx C3 (bp 4) 0 0) (pop ++ [[q 3 4; q 3 4]]) (fit ++ [q 3 2]) [q 0 1; q 1 8] (q 1 8) (BFOSt (repeat (q 0 1) 4) (repeat (q 1 1) 4) 1 0)) (World (task_init C3) [] 0)) =
    Ret ([[27803; 12163]; [39009; 47591]; [49152; (-49152)]; [49152; (-147456)]], [14052; 57780; 73728;
    368640], [13901; 10177], [12188; 55913; 12188; 55913], [0; 0; 0; 0], 0, 0)%Z.
  Proof. vm_compute. reflexivity. Qed.
  Example gso_shown : shown (fun r => let '(pop', fit', xb', _, st') := r in (map sv pop', sv fit', sv xb', sv (gl_luc st'), sv (gl_ranges st'), scl (gl_sensing st')))
    (exec E9 (a_iter (gso fxx C9 (q 3 1) (gp GSO0)) pop fit [q 0 1; q 1 8] (q 1 8) (GSOSt [q 5 1; q 4 1; q 3 1] [q 1 1; q 1 2; q 1 4] (q 3 2))) w0) =
    Ret ([[32768; 16384]; [50972; 7281]; [15887; 12163]], [65536; 65535; 40215], [0; 8192], [235520; 204800;
    128000], [90112; 73728; 57344], 98304)%Z.
  Proof. vm_compute. reflexivity. Qed.
  Example mke1_shown : shown (fun r => let '(pop', fit', xb', _, _) := r in (map sm pop', sv fit', sv xb')) (exec E9 (a_iter (mke12 fxx C9 mp false) mpop fit [q 0 1; q 1 8] (q 1 8) tt) w0) =
    Ret ([([13312; 12544], 38400, ([16384; 16384], 32768), false); ([65536; 0], 65536, ([65536; 0], 65536),
    true); ([0; 8192], 16384, ([0; 8192], 8192), false)], [38400; 65536; 16384], [0; 8192])%Z.
  Proof. vm_compute. reflexivity. Qed.
  Example mke2_shown : shown (fun r => let '(pop', fit', xb', _, _) := r in (map sm pop', sv fit', sv xb')) (exec E9 (a_iter (mke12 fxx C9 mp true) mpop fit [q 0 1; q 1 8] (q 1 8) tt) w0) =
    Ret ([([13312; 12544], 38400, ([16384; 16384], 32768), true); ([39424; 6272], 51968, ([39424; 6272],
    51968), false); ([0; 8192], 16384, ([0; 8192], 8192), false)], [38400; 51968; 16384], [0; 8192])%Z.
  Proof. vm_compute. reflexivity. Qed.
  Example mke3_shown : shown (fun r => let '(pop', fit', xb', _, _) := r in (map sv pop', sv fit', sv xb')) (exec E9 (a_iter (mke3 fxx C9 mp) pop fit [q 0 1; q 1 8] (q 1 8) tt) w0) =
    Ret ([[32768; 0]; [0; 0]; [0; 8192]], [32768; 0; 16384], [0; 0])%Z.
  Proof. vm_compute. reflexivity. Qed.
  Example fss_shown : shown (fun r => let '(pop', fit', xb', _, st') := r in (map sf pop', sv fit', sv xb', sv (st_ind st'), sv (st_vol st'), scl (st_weight st'))) (exec E9 (a_iter (fss fxx C9 fp) fpop fit [q 0 1; q 1 8] (q 1 8) (FSSSt [q 1 8; q 1 8] [q 1 4; q 1 2] (q 7500 1))) w0) =
    Ret ([([36169; 15701], 67573, 163840000, [0; 0], 0); ([63130; 341], 63813, 327680000, [0; 0], 0); ([5113;
    7680], 20474, 655360, [0; 0], 0)], [67573; 63813; 20474], [0; 8192], [6400; 6400], [896; 896], 491520000)%Z.
  Proof. vm_compute. reflexivity. Qed.
  (** three states of a run, with the steps of the school *)
  Example fss_steps_shown : map (fun k => match state_after E3 (fss b64ops C3 fp) k with Some (s, w) => (sv (st_ind (r_par s)), sv (st_vol (r_par s)), scl (st_weight (r_par s)), map (fun a => scl (fi_w a)) (r_pop s : list fish)) | None => ([], [], 0, [])%Z end) [0; 1; 2] =
    [([49152; 49152], [6144; 6144], 491520000, [163840000; 163840000; 163840000]); ([6997; 6997], [938; 938],
    491520000, [163840000; 163840000; 163840000]); ([5802; 5802], [853; 853], 491520000, [163840000;
    163840000; 163840000])]%Z.
  Proof. vm_compute. reflexivity. Qed.
  (** better points are found and the fish gain weight *)
  Example fss_fed_shown : map (fun k => match state_after EM (fss b64ops CM fp) k with Some (s, w) => map sf (r_pop s : list fish) | None => [] end) [1; 2] =
    [[([74031; 70318], (-214669), 163905536, [30720; 18432], 67584); ([90223; 58814], (-207853), 163881704,
    [30720; 6144], 43008); ([133919; 74238], (-282397), 163893620, [43008; 6144], 55296)]; [([85599; 80605],
    (-246812), 163971072, [6122; 6122], 18368); ([99930; 65751], 1000000000, 163916033, [4373; 2624], 9621);
    ([143547; 79269], 1000000000, 163915465, [4373; 874], 6122)]]%Z.
  Proof. vm_compute. reflexivity. Qed.
End ExBasic3.

(** C84, refuted parts: with one cell the population becomes empty and a run limited by evaluations never ends; the counters of an earlier run change the next run;
    an odd population loses a cell *)
Theorem C84_single_refuted : exists E p k, let C := e_cfg E in
  cfg_ok C /\ no_nan (e_prob E) /\ repair_ok E /\ 0 < bf_n p /\ 0 < bf_chem p /\ 0 < bf_repr p /\ c_max_evals C = LFin k /\ never_ends E (bfo b64ops C p 0 0).
Proof.
  exists ExBasic3.EE, (ExBasic3.bp 1), 13%Z. cbv zeta. split; [exact ExBasic3.CE_ok|]. split; [apply lin_no_nan|]. split; [exact (clip_ok _ lin fl8 in7 ExBasic3.CE_ok)|].
  split; [vm_compute; lia|]. split; [vm_compute; lia|]. split; [vm_compute; lia|]. split; [reflexivity|]. apply (C84_empty b64ops ExBasic3.EE (ExBasic3.bp 1) 0 0 2); [reflexivity|vm_compute; reflexivity|vm_compute; repeat split].
Qed.
Theorem C84_counters_refuted : exists E p, let C := e_cfg E in
  cfg_ok C /\ no_nan (e_prob E) /\ repair_ok E /\ 0 < bf_n p /\ trace E (bfo b64ops C p 0 0) 9 <> trace E (bfo b64ops C p 1 0) 9.
Proof.
  exists ExBasic3.E3, (ExBasic3.bp 4). cbv zeta. destruct ExBasic3.hyps3 as (H1 & H2 & H3). split; [exact H1|]. split; [exact H2|]. split; [exact H3|]. split; [vm_compute; lia|]. vm_compute. discriminate.
Qed.
Theorem C84_odd_refuted : exists E p, let C := e_cfg E in
  cfg_ok C /\ no_nan (e_prob E) /\ repair_ok E /\ 0 < bf_n p /\ exists s w, reached E (bfo b64ops C p 0 0) s w /\ length (r_pop s : list vec) < bf_n p.
Proof.
  exists ExBasic3.E3, (ExBasic3.bp 5). cbv zeta. destruct ExBasic3.hyps3 as (H1 & H2 & H3). split; [exact H1|]. split; [exact H2|]. split; [exact H3|]. split; [vm_compute; lia|].
  destruct (state_check ExBasic3.E3 (bfo b64ops ExBasic3.C3 (ExBasic3.bp 5) 0 0) 2 (fun s w => length (r_pop s : list vec) <? 5)) as (s & w & R & Q); [vm_compute; reflexivity|]. exists s, w. split; [exact R|]. apply Nat.ltb_lt in Q. exact Q.
Qed.
(** C86 and C87, refuted parts: a rate above 1, no points for a king in version 1, one monkey in version 2, and no points in version 3 raise ValueError *)
Theorem C86_parameters_refuted : exists E p1 p2 p3, let C := e_cfg E in cfg_ok C /\ no_nan (e_prob E) /\ repair_ok E /\
  fltb (flit b64ops 1 1) (mk_rate p1) = true /\ own_exn E (mke12 b64ops C p1 false) 9 = Some EValue /\ ~ best_run E (mke12 b64ops C p1 false) /\
  mk_c p2 = 0 /\ own_exn E (mke12 b64ops C p2 false) 9 = Some EValue /\ ~ best_run E (mke12 b64ops C p2 false) /\
  mk_n p3 = 1 /\ own_exn E (mke12 b64ops C p3 true) 9 = Some EValue /\ ~ best_run E (mke12 b64ops C p3 true).
Proof.
  exists ExBasic3.E3, (MKEPar 3 (q 3 4) (q 3 2) 2 (q 1 2)), (MKEPar 3 (q 3 4) (q 3 4) 0 (q 1 2)), (MKEPar 1 (q 3 4) (q 1 1) 2 (q 1 2)). cbv zeta. destruct ExBasic3.hyps3 as (H1 & H2 & H3).
  split; [exact H1|]. split; [exact H2|]. split; [exact H3|].
  assert (G : forall A e, own_exn ExBasic3.E3 A 9 = Some e -> e <> EFuel -> own_exn ExBasic3.E3 A 9 = Some e /\ ~ best_run ExBasic3.E3 A).
  { intros A e H He. split; [exact H|]. apply (run_raises (fun _ => False) _ _ _ _ H); [exact He|exact (fun x => x)]. }
  destruct (G (mke12 b64ops ExBasic3.C3 (MKEPar 3 (q 3 4) (q 3 2) 2 (q 1 2)) false) EValue) as [A1 A2]; [vm_compute; reflexivity|discriminate|].
  destruct (G (mke12 b64ops ExBasic3.C3 (MKEPar 3 (q 3 4) (q 3 4) 0 (q 1 2)) false) EValue) as [B1 B2]; [vm_compute; reflexivity|discriminate|].
  destruct (G (mke12 b64ops ExBasic3.C3 (MKEPar 1 (q 3 4) (q 1 1) 2 (q 1 2)) true) EValue) as [D1 D2]; [vm_compute; reflexivity|discriminate|].
  split; [vm_compute; reflexivity|]. split; [exact A1|]. split; [exact A2|]. split; [reflexivity|]. split; [exact B1|]. split; [exact B2|]. split; [reflexivity|]. split; [exact D1|exact D2].
Qed.
Theorem C87_no_points_refuted : exists E p, let C := e_cfg E in cfg_ok C /\ no_nan (e_prob E) /\ repair_ok E /\ 0 < mk_n p /\ mk_c p = 0 /\
  own_exn E (mke3 b64ops C p) 9 = Some EValue /\ ~ best_run E (mke3 b64ops C p).
Proof.
  exists ExBasic3.E3, (MKEPar 3 (q 3 4) (q 3 4) 0 (q 1 2)). cbv zeta. destruct ExBasic3.hyps3 as (H1 & H2 & H3). split; [exact H1|]. split; [exact H2|]. split; [exact H3|]. split; [vm_compute; lia|]. split; [reflexivity|].
  assert (Q1 : own_exn ExBasic3.E3 (mke3 b64ops ExBasic3.C3 (MKEPar 3 (q 3 4) (q 3 4) 0 (q 1 2))) 9 = Some EValue) by (vm_compute; reflexivity).
  split; [exact Q1|]. apply (run_raises (fun _ => False) _ _ _ _ Q1); [discriminate|exact (fun x => x)].
Qed.

Print Assumptions C84_bfo.
Print Assumptions C84_inside_64.
Print Assumptions C84_cells.
Print Assumptions C84_step.
Print Assumptions C84_cost.
Print Assumptions C84_empty.
Print Assumptions C85_gso.
Print Assumptions C85_step.
Print Assumptions C85_same_run.
Print Assumptions C86_mke_any.
Print Assumptions C86_mke.
Print Assumptions C86_mke_64.
Print Assumptions C86_state.
Print Assumptions C86_step.
Print Assumptions C86_personal.
Print Assumptions C87_mke3_any.
Print Assumptions C87_mke3.
Print Assumptions C87_step.
Print Assumptions C88_fss.
Print Assumptions C88_fish.
Print Assumptions C88_step.
Print Assumptions C88_steps.
Print Assumptions C88_weights.
Print Assumptions C84_single_refuted.
Print Assumptions C84_counters_refuted.
Print Assumptions C84_odd_refuted.
Print Assumptions C86_parameters_refuted.
Print Assumptions C87_no_points_refuted.
