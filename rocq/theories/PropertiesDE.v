(** Final theorems about differential evolution (C35-C37 and the variants C59). *)
From Coq Require Import ZArith Lia Bool List Sorted.
From Verif Require Import Num Task TaskSpec TaskProofs TaskProofs2 Prog Wp GetBest Run RunSpec RunProofs RunProofs2
  AlgoLib Fops Indiv IndivLib AlgDE DESpec AlgDEProofs AlgAging.
Import ListNotations.

(** ** C35: the crossover operators *)
(** they return (raise nothing), evaluate nothing, and the result is a crossover *)
Theorem C35_crossover : forall E F s pop ic f cr xb d w r w',
  0 < d -> Forall (fun x => length x = d) pop -> ic < length pop -> length xb = d ->
  exec E (cross F s pop ic f cr xb) w = (r, w') ->
  (exists x, r = Ret x /\ crossed F s f cr pop ic xb x) /\ w_ts w' = w_ts w /\ w_h w' = w_h w.
Proof.
  intros E F s pop ic f cr xb d w r w' Hd Hp Hic Hx Ex.
  apply (pure_sound _ E (cross F s pop ic f cr xb) (crossed F s f cr pop ic xb) w r w'); auto.
  intros l. eapply w_cross; eauto.
Qed.

(** ** C36: selection *)
Theorem C36_selection : forall E pop new xb fxb w r w', length new = length pop -> pop <> [] ->
  Forall (fun i => snd i <> NaN) pop -> Forall (fun i => snd i <> NaN) new -> fxb <> NaN ->
  exec E (de_selection pop new xb fxb) w = (r, w') ->
  w' = w /\ exists arr xb' fxb', r = Ret (arr, xb', fxb') /\ length arr = length pop /\
    (forall i old trial res, nth_error pop i = Some old -> nth_error new i = Some trial -> nth_error arr i = Some res ->
       fleb (snd res) (snd old) = true /\ fleb (snd res) (snd trial) = true /\
       (fltb (snd trial) (snd old) = true -> res = trial) /\ (fltb (snd trial) (snd old) = false -> res = old)) /\
    fleb fxb' fxb = true /\ (forall i, In i arr -> fleb fxb' (snd i) = true) /\
    ((xb' = xb /\ fxb' = fxb) \/ In (xb', fxb') arr).
Proof.
  intros E pop new xb fxb w r w' Hl Hne Hp Hn Hf Ex. unfold de_selection in Ex. rewrite exec_bind in Ex.
  assert (Hs : forall w, exec E (de_select pop new) w = (Ret (map2 de_choose new pop), w)).
  { clear - Hl. revert pop Hl. induction new as [|e new IH]; intros [|p pop] Hl w; simpl in *; auto; try discriminate.
    rewrite exec_bind, IH; auto. }
  rewrite Hs in Ex. set (arr := map2 de_choose new pop) in *.
  assert (La : length arr = length pop) by (apply map2_length; auto).
  assert (Hpt : forall i old trial res, nth_error pop i = Some old -> nth_error new i = Some trial -> nth_error arr i = Some res ->
     res = de_choose trial old).
  { unfold arr. clear. revert pop. induction new as [|e new IH]; intros [|p pop] [|i] old trial res H1 H2 H3; simpl in *; try discriminate.
    - inversion H1; inversion H2; inversion H3; congruence.
    - eauto. }
  assert (Ha : Forall (fun i => snd i <> NaN) arr).
  { unfold arr. clear - Hp Hn. revert pop Hp. induction Hn; intros pop Hp; simpl; auto. inversion Hp; subst; auto.
    constructor; auto. unfold de_choose. destruct (fltb _ _); auto. }
  unfold get_best_i in Ex.
  destruct (get_best_spec (map fst arr) (map snd arr) (Some xb) fxb) as (b & m & (M1 & M2 & M3) & Eg & (x & Exb)).
  { rewrite !map_length; auto. }
  { destruct arr; [|simpl; congruence]. destruct pop; simpl in *; [congruence|discriminate]. }
  { apply Forall_map. auto. }
  rewrite nth_error_map in M1, Exb. destruct (nth_error arr b) as [ib|] eqn:Eb; [|discriminate].
  simpl in M1, Exb. inversion M1; inversion Exb; subst. clear M1 Exb.
  rewrite exec_bind, Eg in Ex. rewrite nth_error_map, Eb in Ex. simpl in Ex.
  assert (Hib : In ib arr) by (eapply nth_error_In; eauto).
  assert (Hmin : forall i, In i arr -> fleb (snd ib) (snd i) = true).
  { intros i Hi. apply In_nth_error in Hi. destruct Hi as [k Hk]. apply (M2 k). rewrite nth_error_map, Hk. auto. }
  assert (Hnb : snd ib <> NaN) by (rewrite Forall_forall in Ha; auto).
  assert (P1 : forall i old trial res, nth_error pop i = Some old -> nth_error new i = Some trial -> nth_error arr i = Some res ->
       fleb (snd res) (snd old) = true /\ fleb (snd res) (snd trial) = true /\
       (fltb (snd trial) (snd old) = true -> res = trial) /\ (fltb (snd trial) (snd old) = false -> res = old)).
  { intros i old trial res H1 H2 H3. rewrite (Hpt _ _ _ _ H1 H2 H3).
    assert (N1 : snd old <> NaN) by exact (Forall_nth _ _ _ _ _ Hp H1).
    assert (N2 : snd trial <> NaN) by exact (Forall_nth _ _ _ _ _ Hn H2).
    destruct (de_choose_le trial old N2 N1). split; auto. split; auto. unfold de_choose.
    split; intros ->; auto. }
  destruct (fleb (snd ib) fxb) eqn:Q; simpl in Ex; inversion Ex; subst; (split; [auto|]).
  - exists arr, (fst ib), (snd ib). split; auto. split; auto. split; auto. split; auto. split; auto.
    right. destruct ib; auto.
  - exists arr, xb, fxb. split; auto. split; auto. split; auto. split; [apply fleb_refl; auto|]. split; auto.
    intros i Hi. eapply fleb_trans; [|apply Hmin; auto]. apply fltb_fleb. apply fleb_false_fltb; auto.
Qed.

(** ** C37: DifferentialEvolution *)

Lemma de_like_best : forall X E (P : nat -> Prop) evolve sel post n,
  let C := e_cfg E in
  cfg_ok C -> no_nan (e_prob E) -> repair_ok E -> 0 < n -> P n ->
  evolve_ok C X evolve -> selection_ok C X P sel -> post_ok C X P post ->
  best_run_x X E (de_like C n evolve sel post) /\ sizes_ok P E (de_like C n evolve sel post).
Proof.
  intros X E P evolve sel post n C HC Hn Hr Hp HP He Hs Ht.
  destruct (de_like_ok C X P evolve sel post n HC Hp HP He Hs Ht) as (Inv & A1 & A2 & A3). split.
  - apply (best_run_intro X E _ Inv); auto.
  - intros cb k pos r w' ev H. eapply (run_reported (KBX C X)); eauto.
    + apply env_ok_KB; auto.
    + intros s l Hi. apply (A3 s l Hi).
Qed.

Theorem C37_de : forall F E p, let C := e_cfg E in
  cfg_ok C -> 0 < c_dim C -> no_nan (e_prob E) -> repair_ok E -> 0 < de_n p ->
  best_run E (de F C p) /\ sizes_ok (fun n => n = de_n p) E (de F C p).
Proof.
  intros F E p C HC Hd Hn Hr Hp. apply (de_like_best (fun _ => False)); auto.
  - apply de_evolve_ok; auto.
  - apply de_selection_ok; auto.
  - apply post_id_ok.
Qed.

(** ** C59: the variants *)
Theorem C59_multi_strategy : forall F E p ss, let C := e_cfg E in
  cfg_ok C -> 0 < c_dim C -> no_nan (e_prob E) -> repair_ok E -> 0 < de_n p -> ss <> [] ->
  best_run E (ms_de F C p ss) /\ sizes_ok (fun n => n = de_n p) E (ms_de F C p ss).
Proof.
  intros F E p ss C HC Hd Hn Hr Hp Hss. apply (de_like_best (fun _ => False)); auto.
  - apply ms_evolve_ok; auto.
  - apply de_selection_ok; auto.
  - apply post_id_ok.
Qed.
(** the population of the dynamic variants shrinks by halving, never below 2 (or its initial size) *)
Inductive halved (n0 : nat) : nat -> Prop :=
| halved_0 : halved n0 n0
| halved_S : forall n, halved n0 n -> 3 < n -> halved n0 (n / 2).
Theorem C59_dynnp : forall F E p p_max rp, let C := e_cfg E in
  cfg_ok C -> 0 < c_dim C -> no_nan (e_prob E) -> repair_ok E -> 0 < de_n p -> (p_max <> 0)%Z ->
  best_run E (dynnp_de F C p p_max rp) /\ sizes_ok (halved (de_n p)) E (dynnp_de F C p p_max rp).
Proof.
  intros F E p p_max rp C HC Hd Hn Hr Hp Hz. apply (de_like_best (fun _ => False)); auto.
  - constructor.
  - apply de_evolve_ok; auto.
  - apply de_selection_ok; auto.
  - apply dynnp_post_ok; auto. intros n H1 H2. constructor; auto.
Qed.
Theorem C59_dynnp_multi_strategy : forall F E p ss p_max rp, let C := e_cfg E in
  cfg_ok C -> 0 < c_dim C -> no_nan (e_prob E) -> repair_ok E -> 0 < de_n p -> ss <> [] -> (p_max <> 0)%Z ->
  best_run E (dynnp_ms_de F C p ss p_max rp) /\ sizes_ok (halved (de_n p)) E (dynnp_ms_de F C p ss p_max rp).
Proof.
  intros F E p ss p_max rp C HC Hd Hn Hr Hp Hss Hz. apply (de_like_best (fun _ => False)); auto.
  - constructor.
  - apply ms_evolve_ok; auto.
  - apply de_selection_ok; auto.
  - apply dynnp_post_ok; auto. intros n H1 H2. constructor; auto.
Qed.
Lemma halved_bounds : forall n0 n, halved n0 n -> n <= n0 /\ (n = n0 \/ 2 <= n).
Proof.
  intros n0 n H. induction H; [auto|]. destruct IHhalved as [H1 H2].
  assert (n / 2 <= n) by (apply Nat.div_le_upper_bound; lia).
  assert (2 <= n / 2) by (apply Nat.div_le_lower_bound; lia). lia.
Qed.
(** AgingNpDE: the only exceptions of its own are those of round() on a lifetime that is not finite *)
Theorem C59_aging : forall F E p, let C := e_cfg E in
  cfg_ok C -> 0 < c_dim C -> no_nan (e_prob E) -> repair_ok E -> 0 < de_n (ag_de p) ->
  best_run_x aging_exn E (aging_de F C p).
Proof.
  intros F E p C HC Hd Hn Hr Hp. destruct (aging_ok F C p HC Hd Hp) as (Inv & A1 & A2).
  apply (best_run_intro _ E _ Inv); auto.
Qed.

(** ** Concrete cases *)
Module ExDE.
  Definition C := Cfg Minimization 2 [N' (-5); N' (-5)] [N' 5; N' 5] (LFin 12) LInf NInf.
  (* f(x) = x0 + x1 in fixed point; the repair function clips to the centre of the box *)
  Definition P : problem := fun _ x => match x with [Fin a; Fin b] => Ret (Fin (a + b)) | _ => Ret PInf end.
  Definition E := Env C P (fun _ _ => [N' 1; N' 2]) (fun p => N' (Z.of_nat (p mod 7) - 3)) (fun p => 3 * p).
  Definition p := DEPar 4 (N' 1) (N' 1) Rand1.
  Example hyps : cfg_ok C /\ 0 < c_dim C /\ no_nan P /\ repair_ok E /\ 0 < de_n p.
  Proof.
    repeat split; try (simpl; lia); try reflexivity.
    - repeat constructor.
    - intros h x v H Q. unfold P in H.
      destruct x as [|[] [|[] [|]]]; try (inversion H; subst; discriminate).
    - intros q x _. vm_compute. repeat constructor; right; auto.
  Qed.
  Example run_case : exists x w' ev, run_body E (de fx C p) (fun _ => None) 9 (World (task_init C) [] 0)
    = (Ret (x, N' 3), w', ev) /\ length (w_h w') = 12.
  Proof. do 3 eexists. vm_compute. split; reflexivity. Qed.
  Example cross_case : exists x w', exec E (cross fx Rand1 [[N' 0; N' 0]; [N' 1; N' 1]; [N' 2; N' 2]; [N' 4; N' 4]] 1 (N' 1) (N' 1) [N' 0; N' 0])
     (World (task_init C) [] 0) = (Ret x, w') /\ x <> [N' 1; N' 1].
  Proof. do 2 eexists. split; [vm_compute; reflexivity|]. vm_compute. congruence. Qed.
End ExDE.

Print Assumptions C35_crossover. Print Assumptions C36_selection. Print Assumptions C37_de.
Print Assumptions C59_multi_strategy. Print Assumptions C59_dynnp. Print Assumptions C59_dynnp_multi_strategy.
Print Assumptions C59_aging.
