(** Final theorems about CoralReefsOptimization (cro.py) (C118-C121). *)
From Coq Require Import ZArith Lia Lra Reals Bool List Permutation Sorted Floats.SpecFloat.
From Flocq Require Import Core BinarySingleNaN.
From Verif Require Import Num Task TaskSpec TaskProofs TaskProofs2 Prog Wp GetBest Run RunSpec RunProofs RunProofs2
  AlgoLib Fops AlgTac StepSpec StepLib Indiv IndivLib Reach AlgBasic AlgBasic2 AlgBasic2Proofs AlgSwarm PopLib AlgEvoProofs Repair B64 B64Spec B64Int B64Mag ExLib ExLib2
  AlgPSO AlgPSOProofs PropertiesBasic2 PropertiesShade PropertiesProgress AlgMts PropertiesMts AlgKh AlgKhProofs PropertiesKh PropertiesMshoa AlgAso AlgAsoProofs PropertiesAso AlgCro AlgCroProofs.
Import ListNotations.
Open Scope nat_scope.
Notation fabs := Fops.fabs.

(** * C118: runs *)
(** the exceptions of the algorithm itself *)
Definition cro_error (e : exn) : Prop := e = EValue \/ e = EIndex \/ e = EZeroDiv.
Lemma cro_iter_x : forall F C p (X : exn -> Prop), cfg_ok C -> X EIndex ->
  (X EValue \/ (0 < cr_count F (cr_n p) (cr_broadcast p) /\ cr_count F (cr_n p) (cr_broadcast p) < Z.of_nat (cr_n p) /\ 0 < cr_count F (cr_n p) (cr_asexual p) /\
    0 <= cr_count F (cr_n p) (cr_depredation p) /\ cr_count F (cr_n p) (cr_broadcast p) + cr_count F (cr_n p) (cr_depredation p) <= Z.of_nat (cr_n p) /\ 0 < Z.of_nat (c_dim C))%Z) ->
  X EZeroDiv \/ cr_k p <> 0%Z -> iter_c (KBX C X) (cro F C p) (CroInv F C p X).
Proof.
  intros F C p X HC XI HX XZ pop fit xb fxb flat l H. eapply wp_conseq0; [apply (cro_iter_c F C p X HC HX XI XZ); exact H|]. intros [[[[pop' fit'] xb'] fxb'] flat'] l' [G _]. exact G.
Qed.
Lemma cro_best_x : forall F E p (X : exn -> Prop), let C := e_cfg E in cfg_ok C -> no_nan (e_prob E) -> repair_ok E -> 0 < cr_n p -> X EIndex ->
  (X EValue \/ (0 < cr_count F (cr_n p) (cr_broadcast p) /\ cr_count F (cr_n p) (cr_broadcast p) < Z.of_nat (cr_n p) /\ 0 < cr_count F (cr_n p) (cr_asexual p) /\
    0 <= cr_count F (cr_n p) (cr_depredation p) /\ cr_count F (cr_n p) (cr_broadcast p) + cr_count F (cr_n p) (cr_depredation p) <= Z.of_nat (cr_n p) /\ 0 < Z.of_nat (c_dim C))%Z) ->
  X EZeroDiv \/ cr_k p <> 0%Z -> best_run_x X E (cro F C p).
Proof.
  intros F E p X C HC Hn Hr Hp XI HX XZ.
  destruct (all_c (inside C) X (fun _ => True) any_step E (cro F C p) (CroInv F C p X)) as (H1 & _); auto.
  - apply cro_init_c; auto.
  - intros pop fit xb fxb flat l H. eapply wp_conseq0; [apply (cro_iter_x F C p X HC XI HX XZ pop fit xb fxb flat l); auto|].
    intros [[[[pop' fit'] xb'] fxb'] flat'] l' G. split; auto. exact Logic.I.
  - intros pop fit xb fxb flat l H. split; [apply H|]. split; [apply H|exact Logic.I].
Qed.
(** whatever the parameters: only points inside the bounds are evaluated, and a run that returns returns the best of them *)
Theorem C118_best : forall F E p, let C := e_cfg E in cfg_ok C -> no_nan (e_prob E) -> repair_ok E -> 0 < cr_n p -> best_run_x cro_error E (cro F C p).
Proof. intros F E p C HC Hn Hr Hp. apply cro_best_x; auto; [right; left; auto|left; left; auto|left; right; right; auto]. Qed.
(** with counts that leave corals for every operator, IndexError is the only exception *)
Theorem C118_counts : forall F E p, let C := e_cfg E in cfg_ok C -> no_nan (e_prob E) -> repair_ok E ->
  let nb := cr_count F (cr_n p) (cr_broadcast p) in let na := cr_count F (cr_n p) (cr_asexual p) in let nd := cr_count F (cr_n p) (cr_depredation p) in
  (0 < nb < Z.of_nat (cr_n p))%Z -> (0 < na)%Z -> (0 <= nd)%Z -> (nb + nd <= Z.of_nat (cr_n p))%Z -> 0 < c_dim C -> cr_k p <> 0%Z -> best_run_x (fun e => e = EIndex) E (cro F C p).
Proof. intros F E p C HC Hn Hr nb na nd H1 H2 H3 H4 H5 H6. apply cro_best_x; auto; fold C; fold nb na nd; lia. Qed.

(** * C119: depredation, and the end of a run *)
(** a population that is an array of numbers *)
Lemma flat_raise : forall F E p pop fit xb fxb w r w', exec E (cr_iter F (e_cfg E) p pop fit xb fxb true) w = (r, w') -> exists e, r = Raise e.
Proof.
  intros F E p pop fit xb fxb w r w' Ex. destruct r as [a|e]; [exfalso|eauto]. unfold cr_iter in Ex. apply (tr_sound _ E _ (fun _ _ => False) _ _ _) in Ex; [exact Ex|].
  apply wp_bind. destruct (_ <? 0)%Z; [exact I|]. apply w_choice_tr. intros rs _ _ _ _. exact I.
Qed.
Lemma iter_flag : forall F E p pop fit xb fxb flat w pop' fit' xb' fxb' flat' w',
  exec E (a_iter (cro F (e_cfg E) p) pop fit xb fxb flat) w = (Ret (pop', fit', xb', fxb', flat'), w') ->
  flat = false /\ cr_k p <> 0%Z /\ flat' = Z.eqb ((Z.of_nat (t_iters (w_ts w)) + 1) mod cr_k p) 0.
Proof.
  intros F E p pop fit xb fxb flat w pop' fit' xb' fxb' flat' w' Ex. cbn [a_iter cro] in Ex. destruct flat; [destruct (flat_raise _ _ _ _ _ _ _ _ _ _ Ex) as [e Q]; discriminate|]. split; auto.
  unfold cr_iter in Ex. rewrite exec_bind in Ex. match type of Ex with context [exec E ?q w] => destruct (exec E q w) as [[bi|e] w1] eqn:X1 end; [|discriminate].
  rewrite exec_bind in Ex. destruct (exec E (cr_body F (e_cfg E) p bi pop fit xb fxb) w1) as [[[[[p2 f2] x2] g2]|e] w2] eqn:X2; [|discriminate].
  apply exec_iters in X1. apply exec_iters in X2. rewrite exec_view in Ex. cbn [v_iters] in Ex. rewrite X2, X1 in Ex.
  destruct (Z.eqb (cr_k p) 0) eqn:Bk; [discriminate|]. split; [intros Z; apply Z.eqb_neq in Bk; auto|].
  destruct ((Z.of_nat (t_iters (w_ts w)) + 1) mod cr_k p =? 0)%Z; [destruct (cr_depredate F p p2 f2) as [p3 f3]|]; cbn [exec] in Ex; congruence.
Qed.
(** at most k iterations are ever finished; the population is an array of numbers exactly after the k-th *)
Theorem C119_rounds : forall F E p s w, (0 < cr_k p)%Z -> reached E (cro F (e_cfg E) p) s w ->
  (Z.of_nat (t_iters (w_ts w)) <= cr_k p)%Z /\ ((r_par s : bool) = true <-> Z.of_nat (t_iters (w_ts w)) = cr_k p).
Proof.
  intros F E p s w Hk H. induction H as [pos pop fit par w xb fxb Ex G|s w pop fit xb fxb par w' H IH Ex].
  - apply (exec_iters _ _ _ _ _ _) in Ex as It. cbn [w_ts t_iters task_init] in It. rewrite It. cbn [r_par]. split; [lia|].
    cbn [a_init cro] in Ex. unfold cr_init in Ex. rewrite exec_bind in Ex. destruct (exec E (default_numpy_init _ _) _) as [[[p0 g0]|e] w1]; [|discriminate]. injection Ex as _ _ <- _. split; [discriminate|lia].
  - destruct (iter_flag _ _ _ _ _ _ _ _ _ _ _ _ _ _ _ Ex) as (F1 & _ & F2). apply exec_iters in Ex as It. cbn [w_ts t_iters next_iter r_par] in *. rewrite It. destruct IH as [I1 I2].
    assert (N : Z.of_nat (t_iters (w_ts w)) <> cr_k p) by (intros Z; apply I2 in Z; congruence). set (t := Z.of_nat (t_iters (w_ts w))) in *. assert (T : Z.of_nat (S (t_iters (w_ts w))) = (t + 1)%Z) by (unfold t; lia). rewrite T. split; [lia|].
    subst par. destruct (Z.eq_dec (t + 1) (cr_k p)) as [Z|Z].
    + rewrite Z, Z_mod_same_full. cbn. tauto.
    + rewrite Z.mod_small by (unfold t; lia). split; [intros Q; apply Z.eqb_eq in Q; unfold t in *; lia|intros Q; congruence].
Qed.
(** the iteration after it always raises *)
Theorem C119_raise : forall F E p s w r w', (0 < cr_k p)%Z -> reached E (cro F (e_cfg E) p) s w -> Z.of_nat (t_iters (w_ts w)) = cr_k p ->
  exec E (a_iter (cro F (e_cfg E) p) (r_pop s) (r_fit s) (r_xb s) (r_fxb s) (r_par s)) w = (r, w') -> exists e, r = Raise e.
Proof.
  intros F E p s w r w' Hk H T Ex. destruct (C119_rounds _ _ _ _ _ Hk H) as [_ Q]. apply Q in T. cbn [a_iter cro] in Ex. assert (T' : r_par s = true) by exact T. rewrite T' in Ex. eapply flat_raise; eauto.
Qed.
(** so a run that returns was stopped by the number of evaluations, the cutoff, or a limit of at most k iterations *)
Lemma loop_ret : forall E A cb n s w ev x f w' ev', reached E A s w -> loop E A cb n s w ev = (Ret (x, f), w', ev') ->
  exists s', reached E A s' w' /\ stopping_condition (e_cfg E) (w_ts w') = true /\ x = r_xb s' /\ f = r_fxb s'.
Proof.
  intros E A cb n. induction n as [|n IH]; intros s w ev x f w' ev' H L; cbn [loop] in L.
  - destruct (stopping_condition (e_cfg E) (w_ts w)) eqn:S0; [|discriminate L]. injection L as <- <- <- _. exists s. auto.
  - destruct (stopping_condition (e_cfg E) (w_ts w)) eqn:S0; [injection L as <- <- <- _; exists s; auto|]. destruct (cb (BeforeIter (r_fit s) (r_xb s) (r_fxb s) :: ev)); [discriminate L|].
    destruct (exec E (a_iter A (r_pop s) (r_fit s) (r_xb s) (r_fxb s) (r_par s)) w) as [[[[[[pop fit] xb] fxb] par]|e0] w1] eqn:Ex; [|discriminate L].
    destruct (cb (AfterIter fit xb fxb :: BeforeIter (r_fit s) (r_xb s) (r_fxb s) :: ev)); [discriminate L|]. eapply IH; [|exact L]. eapply reached_step; eauto.
Qed.
Theorem run_ret : forall E A cb n pos x f w' ev, run_body E A cb n (World (task_init (e_cfg E)) [] pos) = (Ret (x, f), w', ev) ->
  exists s, reached E A s w' /\ stopping_condition (e_cfg E) (w_ts w') = true /\ x = r_xb s /\ f = sgn (c_opt (e_cfg E)) (r_fxb s).
Proof.
  intros E A cb n pos x f w' ev H. unfold run_body in H. destruct (cb [BeforeRun]); [discriminate H|].
  destruct (exec E (a_init A) (World (task_init (e_cfg E)) [] pos)) as [[[[pop fit] par]|e0] w1] eqn:Ex; [|discriminate H].
  destruct (get_best (a_coords A pop) fit None PInf) as [[xb fxb]|e0] eqn:G; [|discriminate H].
  destruct (loop E A cb n (RState pop fit xb fxb par) w1 [BeforeRun]) as [[[[x0 f0']|e0] w2] ev2] eqn:L; [|discriminate H].
  destruct (cb (AfterRun :: ev2)); [discriminate H|]. injection H as <- <- <- _. apply loop_ret in L; [|eapply reached_init; eauto]. destruct L as (s & L1 & L2 & -> & ->). exists s. auto.
Qed.
Theorem C119_end : forall F E p cb n pos x f w' ev, let C := e_cfg E in (0 < cr_k p)%Z -> run_body E (cro F C p) cb n (World (task_init C) [] pos) = (Ret (x, f), w', ev) ->
  (Z.of_nat (t_iters (w_ts w')) <= cr_k p)%Z /\
  (lim_reached (t_evals (w_ts w')) (c_max_evals C) = true \/ fleb (sgn (c_opt C) (t_xf (w_ts w'))) (sgn (c_opt C) (c_cutoff C)) = true \/ exists m, c_max_iters C = LFin m /\ (m <= cr_k p)%Z).
Proof.
  intros F E p cb n pos x f w' ev C Hk H. apply run_ret in H. destruct H as (s & H1 & H2 & _). destruct (C119_rounds _ _ _ _ _ Hk H1) as [T _]. split; auto. fold C in H2. unfold stopping_condition in H2.
  apply orb_true_iff in H2. destruct H2 as [H2|H2]; auto. apply orb_true_iff in H2. destruct H2 as [H2|H2]; auto. right. right. destruct (c_max_iters C) as [|m]; [discriminate|]. exists m. split; auto. cbn in H2. apply Z.leb_le in H2. lia.
Qed.

(** * C120: the reef only grows *)
Lemma cro_inv : forall F E p s w, let C := e_cfg E in cfg_ok C -> no_nan (e_prob E) -> repair_ok E -> 0 < cr_n p -> reached E (cro F C p) s w ->
  CroInv F C p cro_error (r_pop s) (r_fit s) (r_xb s) (r_fxb s) (r_par s) (log_of (c_opt C) (w_h w)).
Proof.
  intros F E p s w C HC Hn Hr Hp H. apply (reach_c (inside C) cro_error E (cro F C p) (CroInv F C p cro_error)); auto; [apply cro_init_c; auto|].
  apply cro_iter_x; auto; [right; left; auto|left; left; auto|left; right; right; auto].
Qed.
(** before the k-th iteration ends: all corals inside the bounds with their values, never fewer than at the start *)
Theorem C120_reef : forall F E p s w, let C := e_cfg E in cfg_ok C -> no_nan (e_prob E) -> repair_ok E -> 0 < cr_n p -> reached E (cro F C p) s w -> (r_par s : bool) = false ->
  Forall (inside C) (r_pop s : list vec) /\ cr_n p <= length (r_pop s : list vec) /\
  Forall2 (fun x v => v = PInf \/ In (x, v) (log_of (c_opt C) (w_h w))) (r_pop s : list vec) (r_fit s).
Proof. intros F E p s w C HC Hn Hr Hp H Q. destruct (cro_inv F E p s w HC Hn Hr Hp H) as (_ & _ & G & _). destruct (G Q) as (G1 & G2 & G3). auto. Qed.
(** an iteration without depredation keeps every coral with its value and appends evaluated corals, each at least phi away from SOME coral before it *)
Theorem C120_grows : forall F E p s w pop' fit' xb' fxb' w', let C := e_cfg E in cfg_ok C -> no_nan (e_prob E) -> repair_ok E -> 0 < cr_n p -> reached E (cro F C p) s w ->
  exec E (a_iter (cro F C p) (r_pop s) (r_fit s) (r_xb s) (r_fxb s) (r_par s)) w = (Ret (pop', fit', xb', fxb', false), w') ->
  exists ex ef, (pop' : list vec) = (r_pop s : list vec) ++ ex /\ fit' = r_fit s ++ ef /\
    Forall2 (fun x v => v = PInf \/ In (x, v) (log_of (c_opt C) (w_h w'))) ex ef /\
    forall j, j < length ex -> exists i, i < length (r_pop s : list vec) + j /\ fleb (cr_phi p) (euclidean F (nth i (pop' : list vec) []) (nth j ex [])) = true.
Proof.
  intros F E p s w pop' fit' xb' fxb' w' C HC Hn Hr Hp H Ex.
  assert (G : CroInv F C p cro_error (r_pop s) (r_fit s) (r_xb s) (r_fxb s) (r_par s) (log_of (c_opt C) (w_h w))) by (apply cro_inv; auto).
  assert (XV : cro_error EValue \/ (0 < cr_count F (cr_n p) (cr_broadcast p) /\ cr_count F (cr_n p) (cr_broadcast p) < Z.of_nat (cr_n p) /\ 0 < cr_count F (cr_n p) (cr_asexual p) /\
    0 <= cr_count F (cr_n p) (cr_depredation p) /\ cr_count F (cr_n p) (cr_broadcast p) + cr_count F (cr_n p) (cr_depredation p) <= Z.of_nat (cr_n p) /\ 0 < Z.of_nat (c_dim C))%Z) by (left; left; auto).
  assert (W := cro_iter_c F C p cro_error HC XV (or_intror (or_introl eq_refl)) (or_introl (or_intror (or_intror eq_refl))) _ _ _ _ _ _ G).
  assert (S := wp_sound _ _ _ _ _ _ _ _ (env_ok_KB (inside C) cro_error E Hn Hr) W Ex). destruct S as (_ & S). cbn in S. destruct S as (_ & _ & S). destruct (S eq_refl) as (e1 & g1 & e2 & g2 & -> & -> & S3 & S4 & S5 & S6).
  exists (e1 ++ e2), (g1 ++ g2). rewrite !app_assoc. split; auto. split; auto. split; [apply Forall2_app; auto|]. intros j Hj.
  destruct (Compare_dec.le_lt_dec (length e1) j) as [Q|Q].
  - rewrite app_length in Hj. rewrite (app_nth2 e1 e2) by auto. assert (Z : In (nth (j - length e1) e2 []) e2) by (apply nth_In; lia).
    destruct (proj1 (Forall_forall _ _) S6 _ Z) as (y & Hy & Hf). destruct (In_nth _ _ [] Hy) as (i & Hi & <-). exists i. rewrite app_length in Hi. split; [lia|]. rewrite (app_nth1 _ e2) by (rewrite app_length; auto). exact Hf.
  - rewrite (app_nth1 e1 e2) by auto. assert (Z : In (nth j e1 []) e1) by (apply nth_In; auto).
    destruct (proj1 (Forall_forall _ _) S5 _ Z) as (y & Hy & Hf). destruct (In_nth _ _ [] Hy) as (i & Hi & <-). exists i. split; [lia|]. rewrite <- app_assoc, app_nth1 by auto. exact Hf.
Qed.

(** * C121: the operators and one iteration *)
(** the positions below n with a property, in their order *)
Definition listed (n : nat) (P : nat -> Prop) (is : list nat) : Prop := StronglySorted lt is /\ forall i, In i is <-> i < n /\ P i.
(** an order of the positions by value *)
Definition ranked (fit : list num) (o : list nat) : Prop :=
  Permutation (seq 0 (length fit)) o /\ StronglySorted (fun i j => key_le (nth i fit NaN) (nth j fit NaN) = true) o.
Lemma seq_sorted : forall n s, StronglySorted lt (seq s n).
Proof. induction n as [|n IH]; intros s; cbn [seq]; constructor; auto. apply Forall_forall. intros i Hi. apply in_seq in Hi. lia. Qed.
Lemma filter_sorted : forall (f : nat -> bool) is, StronglySorted lt is -> StronglySorted lt (filter f is).
Proof.
  intros f is H. induction H as [|i is H IH Hf]; cbn [filter]; [constructor|]. destruct (f i); auto. constructor; auto. apply Forall_forall. intros j Hj. apply filter_In in Hj. exact (proj1 (Forall_forall _ _) Hf _ (proj1 Hj)).
Qed.
Lemma filter_listed : forall n f (P : nat -> Prop), (forall i, i < n -> (f i = true <-> P i)) -> listed n P (filter f (seq 0 n)).
Proof.
  intros n f P H. split; [apply filter_sorted; apply seq_sorted|]. intros i. rewrite filter_In, in_seq. split.
  - intros [H1 H2]. split; [lia|]. apply H; auto. lia.
  - intros [H1 H2]. split; [lia|]. apply H; auto.
Qed.
Lemma argsort_ranked : forall fit, ranked fit (argsort fit).
Proof.
  intros fit. split; [apply argsort_perm|]. unfold argsort. set (ps := combine (seq 0 (length fit)) fit).
  assert (G : forall ia, In ia (sort_on snd ps) -> nth (fst ia) fit NaN = snd ia).
  { intros [i a] Hi. apply sort_on_In in Hi. unfold ps in Hi. destruct (In_nth _ _ (0, NaN) Hi) as (k & Hk & E). rewrite combine_length, seq_length in Hk. rewrite combine_nth in E by (rewrite seq_length; auto).
    rewrite seq_nth in E by lia. injection E as <- <-. reflexivity. }
  assert (S := sort_on_sorted _ (@snd nat num) ps). revert G S. generalize (sort_on snd ps) as qs. clear. induction qs as [|[i a] qs IH]; intros G S; cbn [map]; constructor.
  - inversion S; subst. apply IH; auto. intros ia Hi. apply G. right; auto.
  - inversion S as [|? ? S1 S2]; subst. apply Forall_forall. intros j Hj. apply in_map_iff in Hj. destruct Hj as ((j' & b) & <- & Hj). assert (Q := proj1 (Forall_forall _ _) S2 _ Hj).
    rewrite (G (i, a)) by (left; auto). rewrite (G (j', b)) by (right; auto). exact Q.
Qed.
Lemma listed_NoDup : forall n P is, listed n P is -> NoDup is.
Proof.
  intros n P is [S _]. induction S as [|i is S IH Hf]; constructor; auto. intros H. assert (Q := proj1 (Forall_forall _ _) Hf _ H). lia.
Qed.
Section Step.
Variables (F : fops) (E : env) (p : cro_par).
Let C := e_cfg E.
Let d := c_dim C.
Hypothesis HC : cfg_ok C.
Hypothesis Hr : repair_ok E.
Let nb := cr_count F (cr_n p) (cr_broadcast p).
Let na := cr_count F (cr_n p) (cr_asexual p).
Let nd := cr_count F (cr_n p) (cr_depredation p).
Let rows (xs : list vec) (is : list nat) := map (fun i => nth i xs []) is.
Let vals (fs : list num) (is : list nat) := map (fun i => nth i fs NaN) is.
(** the child of x *)
Definition child (x y : vec) : Prop := exists z, brooded F C (cr_mr p) x z /\ repaired E z y.
Definition mover (x y : vec) : Prop := exists z, shifted F C (cr_mr p) (cr_mr p) x z /\ repaired E z y.
(** all larvae closer than phi to a row of arr move, unless that is only the first one *)
Definition updated (arr : list vec) (s : larvae) (l : elog) (s' : larvae) (l' : elog) : Prop :=
  let '(news, nf, xb, fxb) := s in let '(news', nf', xb', fxb') := s' in
  exists ind, listed (length news) (fun i => exists y, In y arr /\ fltb (dist F E y (nth i news [])) (cr_phi p) = true) ind /\
    ((forall i, In i ind -> i = 0) /\ s' = s /\ l' = l \/
     (exists i, In i ind /\ i <> 0) /\ exists ys fs, Forall2 mover (rows news ind) ys /\ evaluated_all ys fs l l' /\ get_best ys fs (Some xb) fxb = Ret (xb', fxb') /\
       length news' = length news /\ length nf' = length nf /\
       (forall j, j < length ind -> nth (nth j ind 0) news' [] = nth j ys [] /\ nth (nth j ind 0) nf' NaN = nth j fs NaN) /\
       forall i, ~ In i ind -> nth i news' [] = nth i news [] /\ nth i nf' NaN = nth i nf NaN).
Fixpoint rounds (reef : list vec) (m : nat) (s : larvae) (l : elog) (s' : larvae) (l' : elog) : Prop :=
  match m with
  | O => s' = s /\ l' = l
  | S m' => exists s1 l1 s2 l2, rounds reef m' s l s1 l1 /\ updated reef s1 l1 s2 l2 /\ updated (fst (fst (fst s2))) s2 l2 s' l'
  end.
(** settling: k rounds, then the larvae at least phi away from some coral stay *)
Definition settles (reef : list vec) (fit : list num) (s : larvae) (l : elog) (s' : larvae) (l' : elog) : Prop :=
  exists news nf xb fxb ind, rounds reef (Z.to_nat (cr_k p)) s l (news, nf, xb, fxb) l' /\
    listed (length news) (fun i => exists y, In y reef /\ fleb (cr_phi p) (dist F E y (nth i news [])) = true) ind /\
    s' = (reef ++ rows news ind, fit ++ vals nf ind, xb, fxb).
(** children of the best corals settle *)
Definition asexual (s : larvae) (l : elog) (s' : larvae) (l' : elog) : Prop :=
  let '(reef, fit, xb, fxb) := s in
  exists o ys fs xb1 fxb1 l1, ranked fit o /\ Forall2 child (rows reef (take_z na o)) ys /\ evaluated_all ys fs l l1 /\ get_best ys fs (Some xb) fxb = Ret (xb1, fxb1) /\
    settles reef fit (ys, fs, xb1, fxb1) l1 s' l'.
(** depredation: the components at the positions of the worst corals are deleted from the flattened reef *)
Definition depredated (reef : list vec) (fit : list num) (pop' : list vec) (fit' : list num) : Prop :=
  exists o kp kc, ranked fit o /\ listed (length fit) (fun i => ~ In i (take_z nd (rev o))) kp /\ fit' = vals fit kp /\
    listed (length (concat reef)) (fun i => ~ In i (take_z nd (rev o))) kc /\ pop' = map (fun i => [nth i (concat reef) NaN]) kc.
Definition bred (bi : list nat) (pop : list vec) (fit : list num) (xb : vec) (fxb : num) (l : elog) (s' : larvae) (l' : elog) : Prop :=
  exists ys1 fs1 xb1 fxb1 l1 rest ys2 fs2 xb2 fxb2 l2 s3 l3,
    crossed C (cr_cr p) (rows pop bi) ys1 /\ evaluated_all ys1 fs1 l l1 /\ get_best ys1 fs1 (Some xb) fxb = Ret (xb1, fxb1) /\
    listed (length pop) (fun i => ~ In i bi) rest /\ Forall2 child (rows pop rest) ys2 /\ evaluated_all ys2 fs2 l1 l2 /\ get_best ys2 fs2 (Some xb1) fxb1 = Ret (xb2, fxb2) /\
    settles pop fit (ys1 ++ ys2, fs1 ++ fs2, xb2, fxb2) l2 s3 l3 /\ asexual s3 l3 s' l'.
Lemma child_len : forall x y, child x y -> length y = d.
Proof. intros x y (z & [Lz _] & q & ->). apply inside_len; auto. Qed.
Lemma mover_len : forall x y, mover x y -> length y = d.
Proof. intros x y (z & [Lz _] & q & ->). apply inside_len; auto. Qed.
Lemma dims_child : forall xs ys, Forall2 child xs ys -> dims d ys.
Proof. intros xs ys H. induction H; constructor; auto. eapply child_len; eauto. Qed.
Lemma dims_mover : forall xs ys, Forall2 mover xs ys -> dims d ys.
Proof. intros xs ys H. induction H; constructor; auto. eapply mover_len; eauto. Qed.
Lemma w_brood_tr : forall pop (Q : list vec * list num -> elog -> Prop) l, dims d pop ->
  (forall ys fs l', Forall2 child pop ys -> evaluated_all ys fs l l' -> Q (ys, fs) l') -> wp (K_tr E) (cr_brood F C (cr_mr p) pop) Q l.
Proof.
  intros pop Q l D HQ. unfold cr_brood. apply wp_bind. apply (w_mapM_rel _ _ _ child).
  - intros x Q' Hx HQ'. unfold cr_brood_row. apply wp_bind. apply w_brood_raw; [exact (proj1 (Forall_forall _ _) D _ Hx)|]. intros z Hz. apply w_repair_tr. intros y Hy. apply HQ'. exists z. auto.
  - intros ys H. apply wp_bind. apply w_eval_all_tr. intros fs l' He. apply w_done. apply HQ; auto.
Qed.
Lemma w_move_tr : forall pop (Q : list vec * list num -> elog -> Prop) l, dims d pop ->
  (forall ys fs l', Forall2 mover pop ys -> evaluated_all ys fs l l' -> Q (ys, fs) l') -> wp (K_tr E) (cr_move F C (cr_mr p) (cr_mr p) pop) Q l.
Proof.
  intros pop Q l D HQ. unfold cr_move. apply wp_bind. apply (w_mapM_rel _ _ _ mover).
  - intros x Q' Hx HQ'. unfold cr_move_row. apply wp_bind. apply w_shift_raw; [exact (proj1 (Forall_forall _ _) D _ Hx)|]. intros z Hz. apply w_repair_tr. intros y Hy. apply HQ'. exists z. auto.
  - intros ys H. apply wp_bind. apply w_eval_all_tr. intros fs l' He. apply w_done. apply HQ; auto.
Qed.
Lemma w_cross_tr : forall pop (Q : list vec * list num -> elog -> Prop) l, dims d pop ->
  (forall ys fs l', crossed C (cr_cr p) pop ys -> evaluated_all ys fs l l' -> Q (ys, fs) l') -> wp (K_tr E) (cr_cross C (cr_cr p) pop) Q l.
Proof.
  intros pop Q l D HQ. unfold cr_cross. apply wp_bind. apply w_cross_rows; auto. intros ys H. apply wp_bind. apply w_eval_all_tr. intros fs l' He. apply w_done. apply HQ; auto.
Qed.
Lemma crossed_dims : forall cr pop ys, dims d pop -> crossed C cr pop ys -> dims d ys.
Proof.
  intros cr pop ys D (L & H1 & H2). apply (dims_of_nth d (length pop)); auto. intros i Hi. destruct (Compare_dec.le_lt_dec (length pop / 2) i) as [Q|Q]; [rewrite H2 by auto; apply dims_nthd; auto|apply H1; auto].
Qed.
Lemma rows_dims : forall xs is, dims d xs -> (forall i, In i is -> i < length xs) -> dims d (rows xs is).
Proof. intros xs is D H. apply Forall_pick; auto. Qed.
(** well-shaped larvae *)
Definition shape (s : larvae) : Prop := dims d (fst (fst (fst s))) /\ length (snd (fst (fst s))) = length (fst (fst (fst s))).
Lemma w_update_tr : forall arr s (Q : larvae -> elog -> Prop) l, dims d arr -> shape s -> (forall s' l', shape s' -> updated arr s l s' l' -> Q s' l') -> wp (K_tr E) (cr_update F C p arr s) Q l.
Proof.
  intros arr [[[news nf] xb] fxb] Q l Da [D L] HQ. cbn [fst snd] in *. unfold cr_update. set (ind := cr_close F (cr_phi p) arr news).
  assert (Lt : forall i, In i ind -> i < length news) by (intros i Hi; exact (close_lt _ _ _ _ _ Hi)).
  assert (Li : listed (length news) (fun i => exists y, In y arr /\ fltb (dist F E y (nth i news [])) (cr_phi p) = true) ind).
  { apply filter_listed. intros i Hi. assert (Ln : length (nth i news []) = c_dim (e_cfg E)) by (apply dims_nthd; auto). rewrite existsb_exists. split.
    - intros (y & Hy & Q1). exists y. split; auto. assert (Ly : length y = c_dim (e_cfg E)) by exact (proj1 (Forall_forall _ _) Da _ Hy). rewrite <- dist_eq; auto.
    - intros (y & Hy & Q1). exists y. split; auto. assert (Ly : length y = c_dim (e_cfg E)) by exact (proj1 (Forall_forall _ _) Da _ Hy). rewrite <- dist_eq in Q1; auto. }
  destruct (existsb (fun i => negb (i =? 0)) ind) eqn:B.
  - apply wp_bind. apply w_move_tr; [apply rows_dims; auto|]. intros ys fs l' Hm He. apply wp_bind. apply w_lift_tr. intros [xb' fxb'] G. apply w_done.
    assert (Ly := Forall2_len _ _ _ _ _ Hm). rewrite map_length in Ly. assert (Lf := evaluated_all_length _ _ _ _ He). assert (ND := listed_NoDup _ _ _ Li).
    destruct (put_nth _ ind ys news [] ND) as [P1 P2]; auto. destruct (put_nth _ ind fs nf NaN ND) as [P3 P4]; [lia|intros i Hi; rewrite L; auto|].
    apply HQ.
    + split; cbn [fst snd]; [apply put_Forall; auto; eapply dims_mover; eauto|rewrite !put_length; auto].
    + cbn. exists ind. split; auto. right. split.
      * apply existsb_exists in B. destruct B as (i & Hi & Bi). exists i. split; auto. intros ->. discriminate.
      * exists ys, fs. split; auto. split; auto. split; auto. split; [apply put_length|]. split; [apply put_length|]. split; [intros j Hj; split; auto|intros i Hi; split; auto].
  - apply w_done. apply HQ; [split; auto|]. cbn. exists ind. split; auto. left. split; auto. intros i Hi. destruct (Nat.eq_dec i 0) as [|N]; auto. exfalso.
    assert (B2 : existsb (fun i => negb (i =? 0)) ind = true) by (apply existsb_exists; exists i; split; auto; apply Nat.eqb_neq in N; rewrite N; auto). congruence.
Qed.
Lemma w_settle_tr : forall reef fit s (Q : larvae -> elog -> Prop) l, dims d reef -> length fit = length reef -> shape s -> (forall s' l', shape s' -> settles reef fit s l s' l' -> Q s' l') -> wp (K_tr E) (cr_settle F C p reef fit s) Q l.
Proof.
  intros reef fit s Q l Dr Lr Hs HQ. unfold cr_settle. apply wp_bind.
  eapply wp_conseq0; [apply (wp_for_range _ _ _ _ (fun m s' l' => shape s' /\ rounds reef m s l s' l'))|].
  - split; [auto|]. cbn. auto.
  - intros i s1 l1 _ [G1 G2]. unfold cr_round. apply wp_bind. apply w_update_tr; auto. intros s2 l2 Z1 Z2. apply w_update_tr; auto; [apply Z1|]. intros s3 l3 Y1 Y2. split; auto. rewrite Nat.add_1_r. cbn [rounds]. exists s1, l1, s2, l2. auto.
  - intros [[[news nf] xb] fxb] l' [[D L] G]. cbn [fst snd] in *. apply w_done. set (ind := cr_far F (cr_phi p) reef news).
    assert (Lt : forall i, In i ind -> i < length news) by (intros i Hi; exact (far_lt _ _ _ _ _ Hi)). apply HQ.
    + split; cbn [fst snd]; [apply Forall_app; split; auto; apply rows_dims; auto|rewrite !app_length, !map_length; lia].
    + exists news, nf, xb, fxb, ind. split; auto. split; auto. apply filter_listed. intros i Hi. assert (Ln : length (nth i news []) = c_dim (e_cfg E)) by (apply dims_nthd; auto). rewrite existsb_exists. split.
      * intros (y & Hy & Q1). exists y. split; auto. assert (Ly : length y = c_dim (e_cfg E)) by exact (proj1 (Forall_forall _ _) Dr _ Hy). rewrite <- dist_eq; auto.
      * intros (y & Hy & Q1). exists y. split; auto. assert (Ly : length y = c_dim (e_cfg E)) by exact (proj1 (Forall_forall _ _) Dr _ Hy). rewrite <- dist_eq in Q1; auto.
Qed.
Lemma w_body_tr : forall bi pop fit xb fxb (Q : larvae -> elog -> Prop) l, dims d pop -> length fit = length pop -> (forall i, In i bi -> i < length pop) ->
  (forall s' l', shape s' -> bred bi pop fit xb fxb l s' l' -> Q s' l') -> wp (K_tr E) (cr_body F C p bi pop fit xb fxb) Q l.
Proof.
  intros bi pop fit xb fxb Q l D L Hb HQ. unfold cr_body. assert (Db : dims d (rows pop bi)) by (apply rows_dims; auto).
  apply wp_bind. apply w_cross_tr; auto. intros ys1 fs1 l1 C1 E1. apply wp_bind. apply w_lift_tr. intros [xb1 fxb1] G1.
  set (rest := filter (fun i => negb (existsb (Nat.eqb i) bi)) (seq 0 (length pop))). assert (Lr : listed (length pop) (fun i => ~ In i bi) rest).
  { apply filter_listed. intros i Hi. rewrite negb_true_iff. split.
    - intros B Hi'. apply existsb_In in Hi'. congruence.
    - intros N. destruct (existsb (Nat.eqb i) bi) eqn:B; auto. exfalso. apply N. apply existsb_In. auto. }
  apply wp_bind. rewrite (drop_all_eq _ bi pop []). fold rest. apply w_brood_tr; [apply rows_dims; auto; intros i Hi; apply Lr in Hi; apply Hi|]. intros ys2 fs2 l2 C2 E2. apply wp_bind. apply w_lift_tr. intros [xb2 fxb2] G2.
  apply wp_bind. apply w_settle_tr; auto.
  { split; cbn [fst snd]; [apply Forall_app; split; [eapply crossed_dims; eauto|eapply dims_child; eauto]|]. rewrite !app_length. rewrite (evaluated_all_length _ _ _ _ E1), (evaluated_all_length _ _ _ _ E2). reflexivity. }
  intros [[[reef fr] xb3] fxb3] l3 [D3 L3] S3. cbn [fst snd] in D3, L3. unfold cr_asex. assert (R := argsort_ranked fr). set (o := argsort fr) in *.
  apply wp_bind. apply w_brood_tr. { apply rows_dims; auto. intros i Hi. apply take_z_In in Hi. unfold o in Hi. apply argsort_lt in Hi. lia. }
  intros ys4 fs4 l4 C4 E4. apply wp_bind. apply w_lift_tr. intros [xb4 fxb4] G4. apply w_settle_tr; auto.
  { split; cbn [fst snd]; [eapply dims_child; eauto|]. rewrite (evaluated_all_length _ _ _ _ E4). reflexivity. }
  intros s5 l5 H5 S5. apply HQ; auto. exists ys1, fs1, xb1, fxb1, l1, rest, ys2, fs2, xb2, fxb2, l2, (reef, fr, xb3, fxb3), l3. do 8 (split; [assumption|]). exists o, ys4, fs4, xb4, fxb4, l4. auto.
Qed.
End Step.
(** move_corals for a probability and a factor that need not agree (the algorithm passes the mutation rate as both) *)
Theorem C121_move : forall F E pr fc pop ys fs wd wd', let C := e_cfg E in Forall (fun x => length x = c_dim C) pop ->
  exec E (cr_move F C pr fc pop) wd = (Ret (ys, fs), wd') ->
  Forall2 (fun x y => exists z, repaired E z y /\ length z = c_dim C /\
    forall k, k < c_dim C -> exists r, in_unit r /\ if fltb r pr then nth k z NaN = nth k x NaN else exists u, in_unit u /\ nth k z NaN = fadd F (nth k x NaN) (fmul F fc u)) pop ys /\
  evaluated_all ys fs (log_of (c_opt C) (w_h wd)) (log_of (c_opt C) (w_h wd')).
Proof.
  intros F E pr fc pop ys fs wd wd' C D Ex. apply (tr_sound _ E _ (fun r l' => Forall2 (fun x y => exists z, shifted F C pr fc x z /\ repaired E z y) pop (fst r) /\
    evaluated_all (fst r) (snd r) (log_of (c_opt C) (w_h wd)) l') _ _ _) in Ex.
  - cbn [fst snd] in Ex. destruct Ex as [Ex H]. split; auto. clear - Ex. induction Ex as [|x y xs ys (z & [Lz S] & R) H IH]; constructor; auto. exists z. auto.
  - unfold cr_move. apply wp_bind. apply (w_mapM_rel _ _ _ (fun x y => exists z, shifted F C pr fc x z /\ repaired E z y)).
    + intros x Q' Hx HQ'. unfold cr_move_row. apply wp_bind. apply w_shift_raw; [exact (proj1 (Forall_forall _ _) D _ Hx)|]. intros z Hz. apply w_repair_tr. intros y Hy. apply HQ'. exists z. auto.
    + intros zs H. apply wp_bind. apply w_eval_all_tr. intros gs l' He. apply w_done. auto.
Qed.
(** one iteration of a reef that is still made of rows *)
Theorem C121_step : forall F E p pop fit xb fxb pop' fit' xb' fxb' flat' wd wd', let C := e_cfg E in cfg_ok C -> repair_ok E ->
  Forall (fun x => length x = c_dim C) pop -> length fit = length pop ->
  exec E (a_iter (cro F C p) pop fit xb fxb false) wd = (Ret (pop', fit', xb', fxb', flat'), wd') ->
  exists bi reef rfit, Z.of_nat (length bi) = cr_count F (cr_n p) (cr_broadcast p) /\ NoDup bi /\ (forall i, In i bi -> i < length pop) /\
    bred F E p bi pop fit xb fxb (log_of (c_opt C) (w_h wd)) (reef, rfit, xb', fxb') (log_of (c_opt C) (w_h wd')) /\
    (if flat' then ((Z.of_nat (t_iters (w_ts wd)) + 1) mod cr_k p = 0)%Z /\ depredated F p reef rfit pop' fit'
     else ((Z.of_nat (t_iters (w_ts wd)) + 1) mod cr_k p <> 0)%Z /\ pop' = reef /\ fit' = rfit).
Proof.
  intros F E p pop fit xb fxb pop' fit' xb' fxb' flat' wd wd' C HC Hr D L Ex. destruct (iter_flag _ _ _ _ _ _ _ _ _ _ _ _ _ _ _ Ex) as (_ & _ & Fl).
  cbn [a_iter cro] in Ex. unfold cr_iter in Ex. rewrite exec_bind in Ex. match type of Ex with context [exec E ?q wd] => destruct (exec E q wd) as [[bi|e] w1] eqn:X1 end; [|discriminate].
  rewrite exec_bind in Ex. destruct (exec E (cr_body F C p bi pop fit xb fxb) w1) as [[[[[p2 f2] x2] g2]|e] w2] eqn:X2; [|discriminate].
  apply exec_iters in X1 as I1. apply exec_iters in X2 as I2. rewrite exec_view in Ex. cbn [v_iters] in Ex. rewrite I2, I1 in Ex.
  apply (tr_sound _ E _ (fun bi l' => l' = log_of (c_opt C) (w_h wd) /\ Z.of_nat (length bi) = cr_count F (cr_n p) (cr_broadcast p) /\ NoDup bi /\ forall i, In i bi -> i < length pop) _ _ _) in X1.
  2:{ destruct (_ <? 0)%Z eqn:B; [exact I|]. apply Z.ltb_ge in B. apply w_choice_tr. intros rs Lr ND Hr' _. split; auto. split; [lia|auto]. }
  destruct X1 as (El & Lb & ND & Hb). fold C in El.
  apply (tr_sound _ E _ (fun s' l' => shape E s' /\ bred F E p bi pop fit xb fxb (log_of (c_opt C) (w_h w1)) s' l') _ _ _) in X2.
  2:{ apply w_body_tr; auto. }
  destruct X2 as [[Sh1 Sh2] X2]. cbn [fst snd] in Sh1, Sh2. fold C in X2. rewrite El in X2. destruct (Z.eqb (cr_k p) 0); [discriminate|].
  assert (Out : x2 = xb' /\ g2 = fxb' /\ wd' = w2 /\ (if flat' then cr_depredate F p p2 f2 = (pop', fit') else pop' = p2 /\ fit' = f2)).
  { destruct ((Z.of_nat (t_iters (w_ts wd)) + 1) mod cr_k p =? 0)%Z; [destruct (cr_depredate F p p2 f2) as [p3 f3]|]; cbn [exec] in Ex; injection Ex as <- <- <- <- <- <-; auto. }
  destruct Out as (-> & -> & -> & Out). exists bi, p2, f2. split; [exact Lb|]. split; [exact ND|]. split; [exact Hb|]. split; [exact X2|]. destruct flat'.
  - split; [apply Z.eqb_eq; auto|]. unfold cr_depredate in Out. injection Out as <- <-. set (o := argsort f2). set (idx := take_z _ (rev o)).
    assert (NI : forall i, negb (existsb (Nat.eqb i) idx) = true <-> ~ In i idx).
    { intros i. rewrite negb_true_iff. split; [intros B Hi; apply existsb_In in Hi; congruence|]. intros N. destruct (existsb (Nat.eqb i) idx) eqn:B; auto. exfalso. apply N. apply existsb_In. auto. }
    exists o, (filter (fun i => negb (existsb (Nat.eqb i) idx)) (seq 0 (length f2))), (filter (fun i => negb (existsb (Nat.eqb i) idx)) (seq 0 (length (concat p2)))).
    split; [apply argsort_ranked|]. split; [apply filter_listed; intros; apply NI|]. split; [apply drop_all_eq|]. split; [apply filter_listed; intros; apply NI|]. rewrite (drop_all_eq _ idx (concat p2) NaN), map_map. reflexivity.
  - split; [intros Z; rewrite Z in Fl; discriminate|]. exact Out.
Qed.
(** sexual crossover: the first offspring and all of the second half are copies of their parents *)
Theorem C121_copies : forall C cr pop ys i, Forall (fun x => length x = c_dim C) pop -> crossed C cr pop ys -> i = 0 \/ length pop / 2 <= i -> nth i ys [] = nth i pop [].
Proof.
  intros C cr pop ys i D (L & H1 & H2) Hi. destruct (Compare_dec.le_lt_dec (length pop / 2) i) as [Q|Q]; auto. destruct Hi as [->|Hi]; [|lia]. destruct (H1 0 Q) as [Lz Hz].
  assert (Hh : 2 * (length pop / 2) <= length pop) by (apply Nat.mul_div_le; lia). assert (Lx : length (nth 0 pop []) = c_dim C) by (apply dims_nthd; auto; lia).
  apply (nth_ext _ _ NaN NaN); [lia|]. intros k Hk. destruct (Hz k) as (r & _ & E); [lia|]. rewrite E. destruct (fltb r cr); reflexivity.
Qed.
(** the larvae are compared with themselves: in binary64 every larva is closer than phi to one of them, so that in every round all of them move *)
Lemma sorted_unique : forall is js, StronglySorted lt is -> StronglySorted lt js -> (forall i, In i is <-> In i js) -> is = js.
Proof.
  induction is as [|i is IH]; intros [|j js] S1 S2 H; auto.
  - exfalso. apply (H j). left; auto.
  - exfalso. apply (H i). left; auto.
  - inversion S1 as [|? ? A1 A2]; subst. inversion S2 as [|? ? B1 B2]; subst.
    assert (i = j). { assert (Hi := proj1 (H i) (or_introl eq_refl)). assert (Hj := proj2 (H j) (or_introl eq_refl)). destruct Hi as [->|Hi]; auto. destruct Hj as [->|Hj]; auto.
      assert (Q1 := proj1 (Forall_forall _ _) B2 _ Hi). assert (Q2 := proj1 (Forall_forall _ _) A2 _ Hj). lia. }
    subst j. f_equal. apply IH; auto. intros q. split; intros Hq.
    + destruct (proj1 (H q) (or_intror Hq)) as [->|]; auto. assert (Q := proj1 (Forall_forall _ _) A2 _ Hq). lia.
    + destruct (proj2 (H q) (or_intror Hq)) as [->|]; auto. assert (Q := proj1 (Forall_forall _ _) B2 _ Hq). lia.
Qed.
Lemma dist_self64 : forall F E x, let C := e_cfg E in arith64 F -> fsqrt F f0 = f0 -> cfg_ok C -> bounds64 C -> between C x -> dist F E x x = f0.
Proof.
  intros F E x C (A1 & A2 & A3 & A4 & A5 & A6) S (HL & HU & _) [B1 B2] [Lx Hx]. rewrite <- dist_eq by auto. unfold euclidean, vsub, vsum. rewrite A1, A2, A3, A5.
  assert (H : Forall (fun c => fsub b64ops c c = Fin 0) x).
  { apply Forall_forall. intros c Hc. destruct (In_nth _ _ NaN Hc) as (k & Hk & <-). destruct (Hx k) as [G1 G2]; [lia|].
    apply (sub_self_in (nth k (c_lower C) NaN) (nth k (c_upper C) NaN)); auto.
    - apply (Forall_nth _ _ _ k _ B1). apply nth_error_nth'. lia.
    - apply (Forall_nth _ _ _ k _ B2). apply nth_error_nth'. lia. }
  assert (G : forall a, a = f0 -> fold_left (fadd b64ops) (map (fun a => fmul b64ops a a) (map2 (fsub b64ops) x x)) a = f0).
  { clear Lx Hx. induction H as [|c x H0 H IH]; intros a ->; [reflexivity|]. cbn [map2 map fold_left]. rewrite H0. apply IH. vm_compute. reflexivity. }
  rewrite G by (vm_compute; reflexivity). exact S.
Qed.
Theorem C121_update : forall F E p arr news nf xb fxb s' wd wd', let C := e_cfg E in cfg_ok C -> repair_ok E -> Forall (fun x => length x = c_dim C) arr -> Forall (fun x => length x = c_dim C) news -> length nf = length news ->
  exec E (cr_update F C p arr (news, nf, xb, fxb)) wd = (Ret s', wd') -> updated F E p arr (news, nf, xb, fxb) (log_of (c_opt C) (w_h wd)) s' (log_of (c_opt C) (w_h wd')).
Proof.
  intros F E p arr news nf xb fxb s' wd wd' C HC Hr D1 D2 L Ex. apply (tr_sound _ E _ (fun s' l' => updated F E p arr (news, nf, xb, fxb) (log_of (c_opt C) (w_h wd)) s' l') _ _ _) in Ex; [exact Ex|].
  apply w_update_tr; auto. split; auto.
Qed.
Theorem C121_all64 : forall F E p news nf xb fxb l s' l', let C := e_cfg E in arith64 F -> fsqrt F f0 = f0 -> cfg_ok C -> repair_ok E -> bounds64 C -> fltb f0 (cr_phi p) = true ->
  Forall (between C) news -> 2 <= length news -> length nf = length news -> updated F E p news (news, nf, xb, fxb) l s' l' ->
  exists xb' fxb' news' nf', s' = (news', nf', xb', fxb') /\ Forall2 (mover F E p) news news' /\ evaluated_all news' nf' l l' /\ get_best news' nf' (Some xb) fxb = Ret (xb', fxb').
Proof.
  intros F E p news nf xb fxb l [[[news' nf'] xb'] fxb'] l' C HF S HC Hr HB Hphi Hb L2 Lf (ind & Li & H).
  assert (Ei : ind = seq 0 (length news)).
  { apply sorted_unique; [apply Li|apply seq_sorted|]. intros i. rewrite in_seq. split; [intros Hi; apply Li in Hi; lia|]. intros Hi. apply Li. split; [lia|]. exists (nth i news []). split; [apply nth_In; lia|].
    rewrite dist_self64; auto. apply (Forall_nth _ _ _ i _ Hb). apply nth_error_nth'. lia. }
  subst ind. destruct H as [(H & _)|(_ & ys & fs & Hm & He & Hg & L1 & L3 & G1 & _)]; [exfalso; assert (Q := H 1); rewrite in_seq in Q; lia|].
  assert (Er : map (fun i => nth i news []) (seq 0 (length news)) = news) by (apply (nth_ext _ _ [] []); [rewrite map_length, seq_length; auto|]; intros i Hi; rewrite map_length, seq_length in Hi; rewrite nth_map_seq by auto; reflexivity).
  cbv beta zeta in Hm. rewrite Er in Hm. assert (Ly := Forall2_len _ _ _ _ _ Hm). assert (Lfs := evaluated_all_length _ _ _ _ He). rewrite seq_length in G1.
  assert (news' = ys /\ nf' = fs) as [-> ->].
  { split; [apply (nth_ext _ _ [] [])|apply (nth_ext _ _ NaN NaN)]; try lia; intros i Hi; (assert (Hi' : i < length news) by lia); destruct (G1 i Hi') as [Q1 Q2]; rewrite seq_nth in Q1, Q2 by auto; auto. }
  exists xb', fxb', ys, fs. auto.
Qed.

(** * Examples *)
Module ExCro.
  Definition C1 := Cfg Minimization 2 [N' (-2); N' (-2)] [N' 2; N' 2] (LFin 400) (LFin 2) NInf.
  Definition E1 := exenv C1 sq.
  Definition p1 (k : Z) := CroPar 4 (q 1 2) (q 1 2) (q 1 2) (q 1 4) k (q 1 2) (q 1 4).
  Lemma ok1 : cfg_ok C1. Proof. split; [reflexivity|]. split; [reflexivity|]. repeat constructor. Qed.
  Lemma rep1 : repair_ok E1. Proof. exact (clip_ok C1 sq fl8 in7 ok1). Qed.
  Example counts : map (fun k => (cr_count b64ops (cr_n (p1 k)) (cr_broadcast (p1 k)), cr_count b64ops (cr_n (p1 k)) (cr_asexual (p1 k)), cr_count b64ops (cr_n (p1 k)) (cr_depredation (p1 k)))) [1%Z] =
    [(2, 2, 1)]%Z.
  Proof. vm_compute. reflexivity. Qed.
  Definition C3 := Cfg Minimization 2 [N' (-2); N' (-2)] [N' 2; N' 2] (LFin 12) (LFin 2) NInf.
  Example trace1 : trace (exenv C3 sq) (cro b64ops C3 (p1 2)) 9 =
    (Ret ([24576; 24576], 18432), [[8192; 40960]; [24576; 24576]; [40960; 8192]; [57344; 57344]; [8192;
    40960]; [57344; 57344]; [(-98304); 98304]; [(-32768); 32768]; [22528; 40960]; [63488; 59392]; [24576;
    47104]; [65536; 73728]])%Z.
  Proof. vm_compute. reflexivity. Qed.
  (** one component moves by the factor 1/4 times a random number, with probability 1/2 *)
  Example moved1 : fst (exec E1 (cr_move b64ops C1 (q 1 2) (q 1 4) [[N' 1; N' 1]]) (World (task_init C1) [] 0)) = Ret ([[N' 1; q 35 32]], [q 2249 1024]).
  Proof. vm_compute. reflexivity. Qed.
  Example hyps : arith64 b64ops /\ fsqrt b64ops f0 = f0 /\ cfg_ok (e_cfg E1) /\ no_nan (e_prob E1) /\ repair_ok E1 /\ bounds64 C1 /\ fltb f0 (cr_phi (p1 2)) = true /\
    let nb := cr_count b64ops (cr_n (p1 2)) (cr_broadcast (p1 2)) in let na := cr_count b64ops (cr_n (p1 2)) (cr_asexual (p1 2)) in let nd := cr_count b64ops (cr_n (p1 2)) (cr_depredation (p1 2)) in
    (0 < nb < Z.of_nat (cr_n (p1 2)))%Z /\ (0 < na)%Z /\ (0 <= nd)%Z /\ (nb + nd <= Z.of_nat (cr_n (p1 2)))%Z /\ 0 < c_dim C1 /\ (0 < cr_k (p1 2))%Z.
  Proof.
    split; [repeat split|]. split; [vm_compute; reflexivity|]. split; [exact ok1|]. split; [apply sq_no_nan|]. split; [exact rep1|].
    split. { assert (G : forall z, is64 (N' z) -> fin64 (N' z)) by (intros z H; split; [exact H|eexists; reflexivity]). split; repeat constructor; apply G; vm_compute; reflexivity. }
    split; [vm_compute; reflexivity|]. cbv zeta. replace (cr_count b64ops (cr_n (p1 2)) (cr_broadcast (p1 2))) with 2%Z by (vm_compute; reflexivity). replace (cr_count b64ops (cr_n (p1 2)) (cr_asexual (p1 2))) with 2%Z by (vm_compute; reflexivity).
    replace (cr_count b64ops (cr_n (p1 2)) (cr_depredation (p1 2))) with 1%Z by (vm_compute; reflexivity). cbn. lia.
  Qed.
  (** an iteration without and one with depredation; the claim that larvae only settle where no coral is closer than phi fails in the first *)
  Definition near (x y : vec) : bool := fltb (euclidean b64ops x y) (cr_phi (p1 2)).
  Definition good_state (s : rstate (cro b64ops C1 (p1 2))) (m : nat) : bool :=
    (length (r_pop s : list vec) =? m) && forallb (fun x => length x =? 2) (r_pop s : list vec) && (length (r_fit s) =? m) && negb (r_par s : bool).
  Definition good_state1 (s : rstate (cro b64ops C1 (p1 1))) (m : nat) : bool :=
    (length (r_pop s : list vec) =? m) && forallb (fun x => length x =? 2) (r_pop s : list vec) && (length (r_fit s) =? m) && negb (r_par s : bool).
  Lemma FA : forall (l : list vec), forallb (fun x => length x =? 2) l = true -> Forall (fun x => length x = 2) l.
  Proof. intros l G; apply Forall_forall; intros x Hx; apply Nat.eqb_eq; exact (proj1 (forallb_forall _ _) G x Hx). Qed.
  Example steps : exists s w pop' fit' xb' fxb' w', reached E1 (cro b64ops C1 (p1 2)) s w /\ (r_par s : bool) = false /\ length (r_pop s : list vec) = 4 /\ Forall (fun x => length x = 2) (r_pop s : list vec) /\ length (r_fit s) = 4 /\
    exec E1 (a_iter (cro b64ops C1 (p1 2)) (r_pop s) (r_fit s) (r_xb s) (r_fxb s) (r_par s)) w = (Ret (pop', fit', xb', fxb', false), w') /\
    length (pop' : list vec) = 10 /\ near (nth 3 (pop' : list vec) []) (nth 4 (pop' : list vec) []) = true.
  Proof.
    set (A := cro b64ops C1 (p1 2)).
    assert (Q : match state_after E1 A 0 with Some (s, w) => good_state s 4 && match exec E1 (a_iter A (r_pop s) (r_fit s) (r_xb s) (r_fxb s) (r_par s)) w with
      | (Ret (pop', _, _, _, false), _) => (length (pop' : list vec) =? 10) && near (nth 3 (pop' : list vec) []) (nth 4 (pop' : list vec) []) | _ => false end | None => false end = true) by (vm_compute; reflexivity).
    destruct (state_after E1 A 0) as [[s w]|] eqn:S0; [|discriminate]. assert (Rc := state_reached _ _ _ _ _ S0). unfold good_state in Q.
    repeat match goal with H : (_ && _)%bool = true |- _ => apply andb_true_iff in H; destruct H end.
    destruct (exec E1 _ w) as [[[[[[pop' fit'] xb'] fxb'] flat']|] wd'] eqn:Ex; [|discriminate]. assert (Ef : flat' = false) by (destruct flat'; [discriminate|reflexivity]). rewrite Ef in *.
    repeat match goal with H : (_ && _)%bool = true |- _ => apply andb_true_iff in H; destruct H end. repeat match goal with H : (_ =? _) = true |- _ => apply Nat.eqb_eq in H end.
    match goal with H : negb _ = true |- _ => apply negb_true_iff in H end.
    exists s, w, pop', fit', xb', fxb', wd'. do 3 (split; [assumption|]). split; [apply FA; assumption|]. split; [assumption|]. split; [exact Ex|]. auto.
  Qed.
  Example last : exists s w pop' fit' xb' fxb' w', reached E1 (cro b64ops C1 (p1 1)) s w /\ (r_par s : bool) = false /\ length (r_pop s : list vec) = 4 /\ Forall (fun x => length x = 2) (r_pop s : list vec) /\ length (r_fit s) = 4 /\
    exec E1 (a_iter (cro b64ops C1 (p1 1)) (r_pop s) (r_fit s) (r_xb s) (r_fxb s) (r_par s)) w = (Ret (pop', fit', xb', fxb', true), w') /\ nth 0 (pop' : list vec) [] <> nth 0 (r_pop s : list vec) [] /\ length (nth 0 (pop' : list vec) []) = 1.
  Proof.
    set (A := cro b64ops C1 (p1 1)).
    assert (Q : match state_after E1 A 0 with Some (s, w) => good_state1 s 4 && match exec E1 (a_iter A (r_pop s) (r_fit s) (r_xb s) (r_fxb s) (r_par s)) w with
      | (Ret (pop', _, _, _, true), _) => (length (nth 0 (pop' : list vec) []) =? 1) && (length (nth 0 (r_pop s : list vec) []) =? 2) | _ => false end | None => false end = true) by (vm_compute; reflexivity).
    destruct (state_after E1 A 0) as [[s w]|] eqn:S0; [|discriminate]. assert (Rc := state_reached _ _ _ _ _ S0). unfold good_state1 in Q.
    repeat match goal with H : (_ && _)%bool = true |- _ => apply andb_true_iff in H; destruct H end.
    destruct (exec E1 _ w) as [[[[[[pop' fit'] xb'] fxb'] flat']|] wd'] eqn:Ex; [|discriminate]. assert (Ef : flat' = true) by (destruct flat'; [reflexivity|discriminate]). rewrite Ef in *.
    repeat match goal with H : (_ && _)%bool = true |- _ => apply andb_true_iff in H; destruct H end. repeat match goal with H : (_ =? _) = true |- _ => apply Nat.eqb_eq in H end.
    match goal with H : negb _ = true |- _ => apply negb_true_iff in H end.
    exists s, w, pop', fit', xb', fxb', wd'. do 3 (split; [assumption|]). split; [apply FA; assumption|]. split; [assumption|]. split; [exact Ex|]. split; [|assumption]. intros Z. rewrite Z in *. lia.
  Qed.
  (** two larvae *)
  Definition n1 : list vec := [[N' 1; N' 1]; [N' 0; N' 1]].
  Example moved : Forall (between C1) n1 /\ 2 <= length n1 /\ exists s' wd', exec E1 (cr_update b64ops C1 (p1 2) n1 (n1, [N' 2; N' 1], [N' 0; N' 1], N' 1)) (World (task_init C1) [] 0) = (Ret s', wd').
  Proof.
    split; [|split; [cbn; lia|]].
    - assert (G : forall x, In x n1 -> between C1 x); [|apply Forall_forall; exact G]. intros x [<-|[<-|[]]]; (split; [reflexivity|]); intros [|[|k]] Hk; try (cbn in Hk; lia); split; vm_compute; reflexivity.
    - assert (Q : match exec E1 (cr_update b64ops C1 (p1 2) n1 (n1, [N' 2; N' 1], [N' 0; N' 1], N' 1)) (World (task_init C1) [] 0) with (Ret _, _) => true | _ => false end = true) by (vm_compute; reflexivity).
      destruct (exec E1 _ _) as [[s'|] wd']; [eauto|discriminate].
  Qed.
  Definition C2 := Cfg Minimization 2 [N' (-2); N' (-2)] [N' 2; N' 2] (LFin 400) (LFin 2) NInf.
  Lemma ok2 : cfg_ok C2. Proof. split; [reflexivity|]. split; [reflexivity|]. repeat constructor. Qed.
End ExCro.

(** The claim that a run with more than k iterations returns the best point evaluated is false: it raises IndexError *)
Theorem C119_iters_refuted : exists E p, let C := e_cfg E in cfg_ok C /\ no_nan (e_prob E) /\ repair_ok E /\ (0 < cr_k p)%Z /\ c_max_iters C = LFin (cr_k p + 1) /\ ~ best_run E (cro b64ops C p) /\
  exists w ev, run_body E (cro b64ops C p) (fun _ => None) 9 (World (task_init C) [] 0) = (Raise EIndex, w, ev).
Proof.
  exists (exenv ExCro.C2 sq), (ExCro.p1 1). cbv zeta. split; [exact ExCro.ok2|]. split; [apply sq_no_nan|]. split; [exact (clip_ok ExCro.C2 sq fl8 in7 ExCro.ok2)|]. split; [cbn; lia|]. split; [reflexivity|].
  destruct (run_raises (fun _ => False) (exenv ExCro.C2 sq) (cro b64ops ExCro.C2 (ExCro.p1 1)) 9 EIndex) as [H1 H2]; [vm_compute; reflexivity|discriminate|auto|]. split; [exact H2|exact H1].
Qed.
(** The claim that larvae settle only where no coral is closer than phi is false *)
Theorem C120_occupied_refuted : exists E p s w pop' fit' xb' fxb' w' i j, let C := e_cfg E in cfg_ok C /\ no_nan (e_prob E) /\ repair_ok E /\ 0 < cr_n p /\ reached E (cro b64ops C p) s w /\
  exec E (a_iter (cro b64ops C p) (r_pop s) (r_fit s) (r_xb s) (r_fxb s) (r_par s)) w = (Ret (pop', fit', xb', fxb', false), w') /\
  i < length (r_pop s : list vec) /\ length (r_pop s : list vec) <= j < length (pop' : list vec) /\ fltb (euclidean b64ops (nth i (pop' : list vec) []) (nth j (pop' : list vec) [])) (cr_phi p) = true.
Proof.
  destruct ExCro.steps as (s & w & pop' & fit' & xb' & fxb' & w' & H1 & H2 & H3 & H4 & H5 & H6 & H7 & H8). exists ExCro.E1, (ExCro.p1 2), s, w, pop', fit', xb', fxb', w', 3, 4. cbv zeta.
  split; [exact ExCro.ok1|]. split; [apply sq_no_nan|]. split; [exact ExCro.rep1|]. split; [cbn; lia|]. split; [exact H1|]. split; [exact H6|].
  split; [exact (eq_ind_r (fun m => 3 < m) (Nat.lt_succ_diag_r 3) H3)|]. split; [split; [exact (eq_ind_r (fun m => m <= 4) (le_n 4) H3)|exact (eq_ind_r (fun m => 4 < m) (proj1 (Nat.ltb_lt 4 10) eq_refl) H7)]|]. exact H8.
Qed.
(** The claim that a larva closer than phi to a coral moves is false: the first one stays if it is the only one *)
Theorem C121_first_refuted : exists E p reef news nf xb fxb w, let C := e_cfg E in cfg_ok C /\ repair_ok E /\ Forall (fun x => length x = c_dim C) reef /\ Forall (fun x => length x = c_dim C) news /\ length nf = length news /\
  (exists y, In y reef /\ fltb (euclidean b64ops y (nth 0 news [])) (cr_phi p) = true) /\ exec E (cr_update b64ops C p reef (news, nf, xb, fxb)) w = (Ret (news, nf, xb, fxb), w).
Proof.
  exists ExCro.E1, (ExCro.p1 2), [[N' 1; N' 1]], ExCro.n1, [N' 2; N' 1], [N' 0; N' 1], (N' 1), (World (task_init ExCro.C1) [] 0). cbv zeta. split; [exact ExCro.ok1|]. split; [exact ExCro.rep1|].
  split; [repeat constructor|]. split; [repeat constructor|]. split; [reflexivity|]. split; [exists [N' 1; N' 1]; split; [left; reflexivity|vm_compute; reflexivity]|].
  unfold cr_update. assert (Q : existsb (fun i => negb (i =? 0)) (cr_close b64ops (cr_phi (ExCro.p1 2)) [[N' 1; N' 1]] ExCro.n1) = false) by (vm_compute; reflexivity). rewrite Q. reflexivity.
Qed.

Print Assumptions C118_best.
Print Assumptions C118_counts.
Print Assumptions C119_rounds.
Print Assumptions C119_raise.
Print Assumptions C119_end.
Print Assumptions C119_iters_refuted.
Print Assumptions C120_reef.
Print Assumptions C120_grows.
Print Assumptions C120_occupied_refuted.
Print Assumptions C121_step.
Print Assumptions C121_move.
Print Assumptions C121_update.
Print Assumptions C121_copies.
Print Assumptions C121_all64.
Print Assumptions C121_first_refuted.
