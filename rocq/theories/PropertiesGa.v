(** C140: the selection and crossover functions of ga.py, as functions (in a run their results are overwritten, C48). *)
From Coq Require Import ZArith Lia Bool List.
From Verif Require Import Num Task TaskSpec TaskProofs TaskProofs2 Prog Wp GetBest Run RunSpec RunProofs RunProofs2
  AlgoLib Fops AlgTac StepSpec StepLib Indiv IndivLib AlgPSO AlgPSOProofs AlgSwarm PopLib AlgSwarmProofs Reach SortLib AlgBasic AlgBasicProofs AlgEvo AlgEvoProofs AlgKhProofs PropertiesBasic2 ExLib PropertiesEvo.
Import ListNotations.

(** member i, as (x, f) *)
Definition row (pop : list ind) (i : nat) : ind := nth i pop ([], NaN).
Lemma row_nth : forall pop i a, nth_error pop i = Some a -> i < length pop /\ a = row pop i.
Proof. intros pop i a H. split; [apply nth_error_Some; congruence|]. symmetry. apply nth_error_nth. exact H. Qed.
Lemma nth_firstn_of : forall A (xs : list A) n i d, i < n -> nth i (firstn n xs) d = nth i xs d.
Proof. intros A xs. induction xs as [|x xs IH]; intros n i d H; [rewrite firstn_nil; reflexivity|]. destruct n; [lia|]. destruct i; cbn; auto. apply IH. lia. Qed.
(** ga.py:17-33: the winner is one of ts distinct members, and the best of them; nothing is evaluated *)
Theorem C140_tournament : forall F E ts pop ic xb v wd wd', exec E (ga_select F (STournament ts) pop ic xb) wd = (Ret v, wd') ->
  log_of (c_opt (e_cfg E)) (w_h wd') = log_of (c_opt (e_cfg E)) (w_h wd) /\ 1 <= ts <= length pop /\
  exists is k, length is = ts /\ NoDup is /\ (forall i, In i is -> i < length pop) /\ In k is /\ v = fst (row pop k) /\
    ((forall i, In i is -> snd (row pop i) <> NaN) -> forall i, In i is -> fleb (snd (row pop k)) (snd (row pop i)) = true).
Proof.
  intros F E ts pop ic xb v wd wd' Ex. set (lg := log_of (c_opt (e_cfg E)) (w_h wd)).
  apply (tr_sound _ E _ (fun v l' => l' = lg /\ 1 <= ts <= length pop /\ exists is k, length is = ts /\ NoDup is /\ (forall i, In i is -> i < length pop) /\ In k is /\ v = fst (row pop k) /\
    ((forall i, In i is -> snd (row pop i) <> NaN) -> forall i, In i is -> fleb (snd (row pop k)) (snd (row pop i)) = true)) _ _ _) in Ex; [exact Ex|].
  unfold ga_select. apply wp_bind. apply w_choice_tr. intros is L ND Hi Hk. apply wp_bind. apply (w_mapM_rel _ _ _ (fun i a => a = row pop i)).
  { intros i Q' _ HQ'. apply w_nthP_tr. intros a Ha. apply HQ'. apply (row_nth _ _ _ Ha). }
  intros cs Hc. assert (Ec : cs = map (row pop) is) by (clear - Hc; induction Hc; cbn [map]; congruence).
  destruct (argmin (map snd cs)) as [j|] eqn:A; [|exact I]. assert (Hj := argmin_range _ _ A). rewrite map_length, Ec, map_length in Hj.
  apply wp_bind. apply w_nthP_tr. intros c Hc2. apply w_done. split; [reflexivity|]. split; [lia|]. exists is, (nth j is 0). split; [exact L|]. split; [exact ND|]. split; [exact Hi|]. split; [apply nth_In; lia|].
  assert (Erow : c = row pop (nth j is 0)). { rewrite Ec in Hc2. rewrite nth_error_map, (nth_error_nth' is 0) in Hc2 by lia. cbn in Hc2. congruence. }
  split; [congruence|]. intros NN i Hin.
  destruct (argmin_spec (map snd cs)) as (b & m & Hb & FM); [rewrite Ec; destruct is; [cbn in Hj; lia|discriminate]| |].
  { rewrite Ec, map_map. apply Forall_forall. intros x Hx. apply in_map_iff in Hx. destruct Hx as (i' & <- & Hi'). auto. }
  assert (b = j) by congruence. subst b. destruct (In_nth is i 0 Hin) as (t & Ht & Et).
  assert (N : forall t, t < length is -> nth_error (map snd cs) t = Some (snd (row pop (nth t is 0)))). { intros t' H'. rewrite Ec, map_map, nth_error_map, (nth_error_nth' is 0) by auto. reflexivity. }
  destruct FM as (F1 & F2 & F3). rewrite (N j Hj) in F1. injection F1 as F1. rewrite F1, <- Et.
  eapply F2. apply (N t Ht).
Qed.
(** ga.py:36-51 *)
Theorem C140_roulette : forall F E pop ic xb v wd wd', exec E (ga_select F SRoulette pop ic xb) wd = (Ret v, wd') ->
  log_of (c_opt (e_cfg E)) (w_h wd') = log_of (c_opt (e_cfg E)) (w_h wd) /\ ic < length pop /\
  exists r, in_unit r /\ let total := vsum F (map snd pop) in
    if fltb r (vsum F (map (fun i => fdiv F (snd (row pop i)) total) (seq 0 (ic + 1)))) then v = fst (row pop ic) else v = xb.
Proof.
  intros F E pop ic xb v wd wd' Ex. set (lg := log_of (c_opt (e_cfg E)) (w_h wd)).
  apply (tr_sound _ E _ (fun v l' => l' = lg /\ ic < length pop /\ exists r, in_unit r /\
    if fltb r (vsum F (map (fun i => fdiv F (snd (row pop i)) (vsum F (map snd pop))) (seq 0 (ic + 1)))) then v = fst (row pop ic) else v = xb) _ _ _) in Ex; [exact Ex|].
  unfold ga_select. cbv zeta. apply wp_bind. apply w_nthP_tr. intros x Hx. apply row_nth in Hx. destruct Hx as [Hi ->]. apply wp_bind. apply w_random_u. intros r Hr. apply w_done.
  split; [reflexivity|]. split; [exact Hi|]. exists r. split; [exact Hr|].
  assert (Ef : firstn (S ic) pop = map (row pop) (seq 0 (ic + 1))).
  { apply (nth_ext _ _ ([], NaN) ([], NaN)); [rewrite firstn_length, map_length, seq_length; lia|]. intros j Hj. rewrite firstn_length in Hj. rewrite nth_firstn_of by lia. symmetry. apply nth_map_seq. lia. }
  rewrite Ef, map_map. destruct (fltb r _); reflexivity.
Qed.
(** ga.py:54-137: the other parent is the member itself *)
Theorem C140_crossover : forall F E x pop ic v wd wd', exec E (ga_crossover F x pop ic) wd = (Ret v, wd') ->
  log_of (c_opt (e_cfg E)) (w_h wd') = log_of (c_opt (e_cfg E)) (w_h wd) /\ ic < length pop /\ let a := fst (row pop ic) in
  match x with
  | XUros cr => length v = length a /\ forall k, k < length a -> exists r alpha, in_unit r /\ alpha = fadd F cr (fmul F (fadd F (flit F 1 1) (fmul F (flit F 2 1) cr)) r) /\
      nth k v NaN = fadd F (fmul F alpha (nth k a NaN)) (fmul F (fsub F (flit F 1 1) alpha) (nth k a NaN))
  | _ => v = a
  end.
Proof.
  intros F E x pop ic v wd wd' Ex. set (lg := log_of (c_opt (e_cfg E)) (w_h wd)). 
  apply (tr_sound _ E _ (fun v l' => l' = lg /\ ic < length pop /\ match x with
  | XUros cr => length v = length (fst (row pop ic)) /\ forall k, k < length (fst (row pop ic)) -> exists r alpha, in_unit r /\ alpha = fadd F cr (fmul F (fadd F (flit F 1 1) (fmul F (flit F 2 1) cr)) r) /\
      nth k v NaN = fadd F (fmul F alpha (nth k (fst (row pop ic)) NaN)) (fmul F (fsub F (flit F 1 1) alpha) (nth k (fst (row pop ic)) NaN))
  | _ => v = fst (row pop ic)
  end) _ _ _) in Ex; [exact Ex|].
  unfold ga_crossover. apply wp_bind. apply w_nthP_tr. intros y Hy. apply row_nth in Hy. destruct Hy as [Hi ->]. cbv zeta. set (a := fst (row pop ic)).
  assert (IN : forall n (Q : list nat -> elog -> Prop), (forall is, Q is lg) -> wp (K_tr E) (repeatM n (integers (length a))) Q lg).
  { intros n Q HQ. destruct (length a) as [|d] eqn:Ld; [|apply w_repeat_integers; [lia|auto]]. destruct n; [apply w_done; auto|exact I]. }
  destruct x as [|m|cr|cr].
  - apply wp_bind. apply IN. intros is. apply w_done. auto.
  - apply wp_bind. apply IN. intros is. apply w_done. auto.
  - apply wp_bind. destruct (length a) as [|d] eqn:Ld; [exact I|]. apply w_integers; [lia|]. intros j Hj. rewrite <- Ld. apply (w_mapM_rel _ _ _ (fun i c => c = nth i a NaN)).
    + intros i Q' _ HQ'. apply wp_bind. apply w_random_u. intros r _. destruct (fltb r cr || (i =? j)); apply w_nthP_tr; intros c Hc; apply HQ'; symmetry; apply nth_error_nth; exact Hc.
    + intros ys Hys. split; [reflexivity|]. split; [exact Hi|]. assert (Ey : ys = map (fun i => nth i a NaN) (seq 0 (length a))) by (clear - Hys; induction Hys; cbn [map]; congruence).
      rewrite Ey. apply (nth_ext _ _ NaN NaN); [rewrite map_length, seq_length; reflexivity|]. intros i H. rewrite map_length, seq_length in H. apply nth_map_seq. exact H.
  - apply wp_bind. apply w_random_vec_u. intros rs Lr Hr. apply w_done. split; [reflexivity|]. split; [exact Hi|]. set (g := fun r => fadd F cr (fmul F (fadd F (flit F 1 1) (fmul F (flit F 2 1) cr)) r)).
    split.
    + unfold vadd, vmul. apply map2_length; apply map2_length; rewrite ?map_length; auto.
    + intros k Hk. exists (nth k rs NaN), (g (nth k rs NaN)). split; [apply (proj1 (Forall_forall _ _) Hr); apply nth_In; lia|]. split; [reflexivity|].
      unfold vadd, vmul. rewrite (nth_map2 _ _ _ _ _ _ k (length a) NaN NaN NaN); [|apply map2_length; rewrite ?map_length; auto|apply map2_length; rewrite ?map_length; auto|auto].
      rewrite !(nth_map2 _ _ _ _ _ _ k (length a) NaN NaN NaN) by (rewrite ?map_length; auto).
      rewrite map_map. assert (N : forall h : num -> num, nth k (map h rs) NaN = h (nth k rs NaN)) by (intros h; rewrite (nth_indep _ NaN (h NaN)) by (rewrite map_length; lia); apply map_nth). rewrite !N. reflexivity.
Qed.

Module ExGa.
  Import ExEvo.
  Definition P : list ind := [([q 1 2; q 1 4], q 1 1); ([q 1 1; q 0 1], q 3 4); ([q 0 1; q 0 1], q 1 8)].
  Definition shown (r : outcome vec * world) : option (list Z) := match fst r with Ret v => Some (map scl v) | _ => None end.
  Definition at_pos n := World (task_init C) [] n.
  (* by position in the random stream: the winners of tournaments of 1, 2 and 3 (4 of 3 raises); then the roulette over the reversed population *)
  Example selected : map (fun s => map (fun n => shown (exec E (ga_select fxx s P 0 [q 1 8; q 1 8]) (at_pos n))) [0; 1; 2; 3]) [STournament 1; STournament 2; STournament 3; STournament 4] =
    [[Some [0; 0]; Some [32768; 16384]; Some [0; 0]; Some [32768; 16384]]; [Some [0; 0]; Some [0; 0]; Some [0;
    0]; Some [0; 0]]; [Some [0; 0]; Some [0; 0]; Some [0; 0]; Some [0; 0]]; [None; None; None; None]]%Z.
  Proof. vm_compute. reflexivity. Qed.
  Example roulette : map (fun n => map (fun i => shown (exec E (ga_select fxx SRoulette (rev P) i [q 1 8; q 1 8]) (at_pos n))) [0; 1; 2; 3]) [0; 1; 2; 3; 4] =
    [[Some [8192; 8192]; Some [65536; 0]; Some [32768; 16384]; None]; [Some [8192; 8192]; Some [8192; 8192];
    Some [32768; 16384]; None]; [Some [8192; 8192]; Some [65536; 0]; Some [32768; 16384]; None]; [Some [8192;
    8192]; Some [65536; 0]; Some [32768; 16384]; None]; [Some [8192; 8192]; Some [8192; 8192]; Some [32768;
    16384]; None]]%Z.
  Proof. vm_compute. reflexivity. Qed.
  Example crossed : map (fun x => shown (exec E (ga_crossover fxx x P 0) (at_pos 0))) [XTwoPoint; XMultiPoint 2; XUniform (q 1 2); XUros (q 1 2)] =
    [Some [32768; 16384]; Some [32768; 16384]; Some [32768; 16384]; Some [32768; 16384]]%Z.
  Proof. vm_compute. reflexivity. Qed.
End ExGa.

Print Assumptions C140_tournament.
Print Assumptions C140_roulette.
Print Assumptions C140_crossover.
