(** Proofs about AlgAso.v. *)
From Coq Require Import ZArith Lia Bool List.
From Verif Require Import Num Task TaskSpec TaskProofs TaskProofs2 Prog Wp GetBest Run RunSpec RunProofs RunProofs2
  AlgoLib Fops AlgTac StepSpec StepLib Indiv IndivLib AlgBasic AlgSwarm PopLib AlgPSO AlgPSOProofs AlgKh AlgKhProofs AlgAso.
Import ListNotations.

Lemma as_copy_length : forall sel x y d, length x = d -> length y = d -> length (as_copy sel x y) = d.
Proof. induction sel as [|s sel IH]; intros [|a x] [|b y] d L1 L2; cbn [as_copy length] in *; subst d; auto; try discriminate. Qed.
Lemma as_copy_nth : forall sel x y d k, length sel = d -> length x = d -> length y = d -> k < d ->
  nth k (as_copy sel x y) NaN = if nth k sel false then nth k y NaN else nth k x NaN.
Proof.
  induction sel as [|s sel IH]; intros [|a x] [|b y] d k L1 L2 L3 Hk; cbn [length] in *; subst d; try discriminate; try lia.
  cbn [as_copy]. destruct k as [|k]; cbn [nth]; [destruct s; auto|]. apply (IH x y (length sel)); lia.
Qed.
Lemma as_add_length : forall F f sel zs x d, length x = d -> length (as_add F f sel zs x) = d.
Proof.
  induction sel as [|[] sel IH]; intros zs [|a x] d L; cbn [as_add length] in *; subst d; auto.
  destruct zs as [|z zs]; cbn [length]; auto.
Qed.
(** the k-th component gets the next normal if it is selected *)
Lemma as_add_nth : forall F f sel zs x d k, length sel = d -> length x = d -> length zs = as_count sel -> k < d ->
  nth k (as_add F f sel zs x) NaN = if nth k sel false then fadd F (nth k x NaN) (fmul F f (nth (as_count (firstn k sel)) zs NaN)) else nth k x NaN.
Proof.
  induction sel as [|s sel IH]; intros zs [|a x] d k L1 L2 L3 Hk; cbn [length] in *; subst d; try discriminate; try lia.
  destruct s; cbn [as_add].
  - destruct zs as [|z zs]; [unfold as_count in L3; cbn [filter length] in L3; discriminate|]. unfold as_count in L3. cbn [filter length] in L3.
    destruct k as [|k]; [reflexivity|]. cbn [nth firstn]. rewrite (IH zs x (length sel)) by (unfold as_count; lia). reflexivity.
  - destruct k as [|k]; [reflexivity|]. cbn [nth firstn]. rewrite (IH zs x (length sel)) by (auto; unfold as_count in *; cbn [filter] in *; lia). reflexivity.
Qed.

(** ** The moves *)
(** the components between two distinct positions *)
Definition a_slice (d : nat) (sel : list bool) : Prop :=
  length sel = d /\ exists a b, a < b /\ b < d /\ forall k, k < d -> nth k sel false = true <-> a <= k /\ k < b.
(** the components with a random number below cr *)
Definition a_mask (cr : num) (d : nat) (sel : list bool) : Prop :=
  length sel = d /\ exists rs, length rs = d /\ Forall in_unit rs /\ forall k, k < d -> nth k sel false = fltb (nth k rs NaN) cr.
Lemma w_slice_x : forall K d (Q : list bool -> elog -> Prop) l, K_exn K EValue \/ 2 <= d -> (forall sel, a_slice d sel -> Q sel l) -> wp K (as_slice d) Q l.
Proof.
  intros K d Q l Hd HQ. unfold as_slice. apply wp_bind. destruct (Compare_dec.le_lt_dec 2 d) as [H2|H2].
  2:{ destruct Hd as [Hd|Hd]; [|lia]. unfold choice. destruct d as [|[|d]]; [exact Hd| |lia]. cbn [seq choice_from length]. apply wp_bind. apply w_integers; [lia|]. intros r Hr.
      apply wp_bind. apply w_nthP; [cbn; lia|]. intros a _. apply wp_bind. assert (r = 0) as -> by lia. exact Hd. }
  clear Hd. apply w_choice; auto. intros rs L ND R. apply w_done. apply HQ. destruct rs as [|a [|b [|]]]; try discriminate. cbn [nth].
  assert (Ha := R a (or_introl eq_refl)). assert (Hb := R b (or_intror (or_introl eq_refl))).
  assert (a <> b). { intros ->. inversion ND as [|? ? G]. apply G. left. auto. }
  split; [rewrite map_length, seq_length; auto|]. exists (Nat.min a b), (Nat.max a b). split; [lia|]. split; [lia|]. intros k Hk.
  rewrite (nth_indep _ false ((Nat.min a b <=? 0) && (0 <? Nat.max a b))) by (rewrite map_length, seq_length; auto).
  rewrite (map_nth (fun k => (Nat.min a b <=? k) && (k <? Nat.max a b))). rewrite seq_nth by auto. rewrite andb_true_iff, Nat.leb_le, Nat.ltb_lt. reflexivity.
Qed.
Lemma w_mask : forall K d cr (Q : list bool -> elog -> Prop) l, (forall sel, a_mask cr d sel -> Q sel l) -> wp K (as_mask d cr) Q l.
Proof.
  intros K d cr Q l HQ. unfold as_mask. apply wp_bind. apply w_random_vec_u. intros rs L U. apply w_done. apply HQ. split; [rewrite map_length; auto|]. exists rs. split; auto. split; auto.
  intros k Hk. rewrite (nth_indep _ false (fltb NaN cr)) by (rewrite map_length; lia). apply (map_nth (fun r => fltb r cr)).
Qed.
Section Moves.
Variables (F : fops) (d : nat).
Definition picks (x y z : vec) (sel : list bool) : Prop := comps d z (fun k c => c = if nth k sel false then nth k y NaN else nth k x NaN).
(** fickleness: normals scaled by f are added to a slice (index below 1/2) or to a random part *)
Definition fickle (f cr mp : num) (x z : vec) : Prop :=
  exists sel, (if fltb mp (flit F 1 2) then a_slice d sel else a_mask cr d sel) /\
  exists g, comps d z (fun k c => c = if nth k sel false then fadd F (nth k x NaN) (fmul F f (g k)) else nth k x NaN).
(** external irregularity: a part of the best or of a random member replaces the own one *)
Definition follows (cr mp : num) (xr xb x z : vec) : Prop :=
  exists sel, (if fltb mp (flit F 1 4) then a_slice d sel else if fltb mp (flit F 1 2) then a_mask cr d sel else if fltb mp (flit F 3 4) then a_slice d sel else a_mask cr d sel) /\
  picks x (if fltb mp (flit F 1 4) || fltb mp (flit F 1 2) then xb else xr) z sel.
(** internal irregularity: a part of the personal best replaces the own one *)
Definition returns (cr mp : num) (xpb x z : vec) : Prop :=
  exists sel, (if fltb mp (flit F 1 2) then a_slice d sel else a_mask cr d sel) /\ picks x xpb z sel.
Lemma picks_copy : forall x y sel, length sel = d -> length x = d -> length y = d -> picks x y (as_copy sel x y) sel.
Proof. intros x y sel L1 L2 L3. split; [apply as_copy_length; auto|]. intros k Hk. apply (as_copy_nth _ _ _ d); auto. Qed.
Lemma w_mp_c : forall K x f cr mp (Q : vec -> elog -> Prop) l, K_exn K EValue \/ 2 <= d -> length x = d -> (forall z, fickle f cr mp x z -> Q z l) -> wp K (as_mp_c F x f cr mp) Q l.
Proof.
  intros K x f cr mp Q l Hd L HQ. unfold as_mp_c. rewrite L. apply wp_bind.
  assert (G : forall sel, length sel = d -> (if fltb mp (flit F 1 2) then a_slice d sel else a_mask cr d sel) -> wp K (let* zs := rnd_f_vec (as_count sel) in Done (as_add F f sel zs x)) Q l).
  { intros sel Ls Hs. apply wp_bind. apply w_rnd_f_vec. intros zs Lz. apply w_done. apply HQ. exists sel. split; auto. exists (fun k => nth (as_count (firstn k sel)) zs NaN).
    split; [apply as_add_length; auto|]. intros k Hk. apply (as_add_nth _ _ _ _ _ d); auto. }
  destruct (fltb mp (flit F 1 2)); [apply w_slice_x; auto; intros sel Hs; apply G; auto; apply Hs|apply w_mask; intros sel Hs; apply G; auto; apply Hs].
Qed.
Lemma w_mp_s : forall K x xr xb cr mp (Q : vec -> elog -> Prop) l, K_exn K EValue \/ 2 <= d -> length x = d -> length xr = d -> length xb = d ->
  (forall z, follows cr mp xr xb x z -> Q z l) -> wp K (as_mp_s F x xr xb cr mp) Q l.
Proof.
  intros K x xr xb cr mp Q l Hd L1 L2 L3 HQ. unfold as_mp_s. rewrite L1.
  destruct (fltb mp (flit F 1 4)) eqn:B1; [|destruct (fltb mp (flit F 1 2)) eqn:B2; [|destruct (fltb mp (flit F 3 4)) eqn:B3]]; apply wp_bind.
  1,3: apply w_slice_x; auto. 3,4: apply w_mask. all: intros sel Hs; apply w_done; apply HQ; exists sel; rewrite ?B1, ?B2, ?B3; cbn [orb]; (split; [exact Hs|apply picks_copy; auto; apply Hs]).
Qed.
Lemma w_mp_p : forall K x xpb cr mp (Q : vec -> elog -> Prop) l, K_exn K EValue \/ 2 <= d -> length x = d -> length xpb = d ->
  (forall z, returns cr mp xpb x z -> Q z l) -> wp K (as_mp_p F x xpb cr mp) Q l.
Proof.
  intros K x xpb cr mp Q l Hd L1 L2 HQ. unfold as_mp_p. rewrite L1. apply wp_bind.
  destruct (fltb mp (flit F 1 2)) eqn:B; [apply w_slice_x; auto|apply w_mask]; intros sel Hs; apply w_done; apply HQ; exists sel; rewrite B; (split; [exact Hs|apply picks_copy; auto; apply Hs]).
Qed.
End Moves.

(** ** Invariants *)
(** (y, v) stands for everything evaluated on the way *)
Definition Chosen (y : vec) (v : num) (l l' : elog) : Prop :=
  ext l l' /\ Seen l' y v /\ v <> NaN /\ forall fs fb, Cov l fs fb -> Cov l' (v :: fs) fb.
Lemma Chosen_Evald : forall y v l l', Evald y v l l' -> Chosen y v l l'.
Proof. intros y v l l' H. split; [eapply Evald_ext; eauto|]. split; [eapply Evald_seen; eauto|]. split; [eapply Evald_nan; eauto|]. intros fs fb G. eapply Cov_Evald; eauto. Qed.
Lemma Chosen_Evals : forall ys vs b y v l l', Evals ys vs l l' -> first_min vs b v -> nth_error ys b = Some y -> Chosen y v l l'.
Proof.
  intros ys vs b y v l l' H (M1 & M2 & M3) E. split; [eapply Evals_ext; eauto|]. split; [apply (Forall2_nth _ _ _ _ _ b _ _ (Evals_seen _ _ _ _ H)); auto|].
  split; [exact (Forall_nth _ _ _ _ _ (Evals_nan _ _ _ _ H) M1)|]. intros fs fb G x u Hi. destruct (Cov_Evals _ _ _ _ _ _ G H x u Hi) as [Q|(g & G1 & G2)]; auto.
  right. apply in_app_or in G1. destruct G1 as [G1|G1]; [|exists g; split; auto; right; auto]. exists v. split; [left; auto|].
  apply In_nth_error in G1. destruct G1 as [k Hk]. eapply fleb_trans; [eapply M2; eauto|auto].
Qed.

Section Aso.
Variables (F : fops) (C : cfg) (p : aso_par) (X : exn -> Prop).
Hypothesis HC : cfg_ok C.
Let d := c_dim C.
Let n := as_n p.
Lemma w_cands : forall x xpb xb xr mpc mps mpp f cr (Q : list vec -> elog -> Prop) l, X EValue \/ 2 <= d -> length x = d -> length xpb = d -> length xb = d -> length xr = d ->
  (forall a b c, inside C a -> inside C b -> inside C c -> Q [a; b; c] l) -> wp (KBX C X) (as_cands F x xpb xb xr mpc mps mpp f cr) Q l.
Proof.
  intros x xpb xb xr mpc mps mpp f cr Q l Hd L1 L2 L3 L4 HQ. unfold as_cands. assert (Hd' : K_exn (KBX C X) EValue \/ 2 <= d) by (destruct Hd; [left; right; auto|auto]).
  apply wp_bind. apply (w_mp_c F d); auto. intros z1 (s1 & _ & g & [Z1 _]). apply wp_bind. apply w_repair; auto. intros a Ha.
  apply wp_bind. apply (w_mp_s F d); auto. intros z2 (s2 & _ & [Z2 _]). apply wp_bind. apply w_repair; auto. intros b Hb.
  apply wp_bind. apply (w_mp_p F d); auto. intros z3 (s3 & _ & [Z3 _]). apply wp_bind. apply w_repair; auto. intros c Hc.
  apply w_done. apply HQ; auto.
Qed.
Lemma inside_rows : forall x, inside C x <-> comps d x (fun k c => in_range (nth k (c_lower C) NaN) (nth k (c_upper C) NaN) c).
Proof.
  clear X n p F. intros x. unfold d. destruct HC as (H1 & H2 & _). split.
  - intros H. assert (L := inside_len _ _ HC H). split; auto. intros k Hk. unfold inside in H.
    apply (Forall2_nth _ _ _ _ _ k (nth k (c_lower C) NaN, nth k (c_upper C) NaN) _ H); [|apply nth_error_nth'; lia].
    rewrite <- combine_nth by lia. apply nth_error_nth'. rewrite combine_length. lia.
  - intros [L H]. unfold inside. clear HC. revert H1 H2 H. generalize (c_lower C) (c_upper C). revert L. generalize (c_dim C). clear. induction x as [|a x IH]; intros m L [|lo los] [|hi his] H1 H2 H; cbn [length] in *; subst m; try discriminate; [constructor|].
    cbn [combine]. constructor; [apply (H 0); lia|]. apply (IH (length x)); auto; try lia. intros k Hk. apply (H (S k)). lia.
Qed.
Lemma w_combine : forall cb x xpb xb xr mpc mps mpp f cr (Q : vec * num -> elog -> Prop) l, X EValue \/ 2 <= d -> inside C x -> length xpb = d -> length xb = d -> length xr = d ->
  (forall y v l', inside C y -> Chosen y v l l' -> Q (y, v) l') -> wp (KBX C X) (as_combine F cb x xpb xb xr mpc mps mpp f cr) Q l.
Proof.
  intros cb x xpb xb xr mpc mps mpp f cr Q l Hd Hx L2 L3 L4 HQ. assert (L1 : length x = d) by (apply inside_len; auto). assert (Hd' : K_exn (KBX C X) EValue \/ 2 <= d) by (destruct Hd; [left; right; auto|auto]).
  destruct cb; cbn [as_combine].
  - apply wp_bind. apply w_cands; auto. intros a b c Ha Hb Hc. apply wp_bind. apply w_eval_all; [discriminate|auto|]. intros fs l' He.
    assert (Lf := Evals_len _ _ _ _ He). destruct (argmin_spec fs) as (k & m & Ek & M); [destruct fs; discriminate|eapply Evals_nan; eauto|].
    rewrite Ek. apply wp_bind. cbn [argP]. apply w_done. assert (Hk := argmin_range _ _ Ek). apply wp_bind. apply w_nthP; [rewrite <- Lf; auto|]. intros y Ey. apply wp_bind. apply w_nthP; auto. intros v Ev. apply w_done.
    assert (v = m) as -> by (destruct M as (M1 & _); congruence). apply HQ; [|eapply Chosen_Evals; eauto].
    apply nth_error_In in Ey. destruct Ey as [<-|[<-|[<-|[]]]]; auto.
  - apply wp_bind. apply (w_mp_c F d); auto. intros z1 (s1 & _ & g & [Z1 _]). apply wp_bind. apply (w_mp_p F d); auto. intros z2 (s2 & _ & [Z2 _]).
    apply wp_bind. apply (w_mp_s F d); auto. intros z3 (s3 & _ & [Z3 _]). apply wp_bind. apply w_repair; auto. intros y Hy. apply wp_bind. apply w_eval; auto. intros v l' He. apply w_done. apply HQ; auto. apply Chosen_Evald; auto.
  - apply wp_bind. apply w_cands; auto. intros a b c Ha Hb Hc. rewrite L1. apply wp_bind.
    apply (w_mapM_seq _ _ (fun i v => in_range (nth i (c_lower C) NaN) (nth i (c_upper C) NaN) v) _ _ NaN).
    { intros i Q' Hi HQ'. apply wp_bind. apply w_random_u. intros r _. destruct (fltb r cr); [|apply w_done; apply HQ'; apply inside_rows; auto].
      apply wp_bind. apply w_integers; [lia|]. intros k Hk. apply w_done. apply HQ'. destruct k as [|[|[|]]]; [| | |lia]; apply inside_rows; auto. }
    intros y Ly Hy. assert (Iy : inside C y) by (apply inside_rows; split; auto). apply wp_bind. apply w_eval; auto. intros v l' He. apply w_done. apply HQ; auto. apply Chosen_Evald; auto.
Qed.
(** the personal bests are evaluated pairs, none better than the best, none worse than the member *)
Lemma Forall2_map_nth : forall (R : vec -> num -> Prop) (ps : list (vec * num)) m, length ps = m -> (forall i, i < m -> R (fst (nth i ps ([], NaN))) (snd (nth i ps ([], NaN)))) -> Forall2 R (map fst ps) (map snd ps).
Proof. intros R ps. induction ps as [|q ps IH]; intros m L H; cbn [map length] in *; subst m; constructor; [apply (H 0); lia|]. apply (IH (length ps)); auto. intros i Hi. apply (H (S i)). lia. Qed.
Record AsoInv (pop : list vec) (fit : list num) (xb : vec) (fxb : num) (pb : list vec * list num) (l : elog) : Prop := {
  ai_pop : PopInv C n pop fit xb fxb l;
  ai_len : length (fst pb) = n; ai_dim : dims d (fst pb);
  ai_pb : pbest l (fst pb) (snd pb) fxb; ai_fit : no_worse (snd pb) fit
}.
Hypothesis Hn : 0 < n.
Lemma near_lt : forall nl rs pop i j, In j (as_near F nl rs pop i) -> j < length pop.
Proof. clear. intros nl rs pop i j H. unfold as_near in H. apply filter_In in H. destruct H as [H _]. apply in_seq in H. lia. Qed.
Lemma w_neighbor : forall K nl rs pop fit i (Q : nat -> elog -> Prop) l, K_exn K EValue \/ as_near F nl rs pop i <> [] ->
  (forall j b, In j (as_near F nl rs pop i) -> argmin (map (fun j => nth j fit NaN) (as_near F nl rs pop i)) = Some b -> nth_error (as_near F nl rs pop i) b = Some j -> Q j l) ->
  wp K (as_neighbor F nl rs pop fit i) Q l.
Proof.
  clear. intros K nl rs pop fit i Q l Hx HQ. unfold as_neighbor. cbv zeta. apply wp_bind. set (ids := as_near F nl rs pop i) in *.
  destruct (argmin (map (fun j => nth j fit NaN) ids)) as [b|] eqn:E; cbn [argP].
  - apply w_done. assert (R := argmin_range _ _ E). rewrite map_length in R. apply w_nthP; auto. intros j Ej. apply (HQ j b); auto. eapply nth_error_In; eauto.
  - destruct Hx as [Hx|Hx]; [exact Hx|]. destruct ids; [congruence|discriminate].
Qed.
Lemma as_pb_spec : forall pbx pbf new m, length pbx = m -> length pbf = m -> length new = m ->
  length (as_pb (combine pbx pbf) new) = m /\ forall i, i < m -> nth i (as_pb (combine pbx pbf) new) ([], NaN) =
    if fltb (snd (nth i new ([], NaN))) (nth i pbf NaN) then nth i new ([], NaN) else (nth i pbx [], nth i pbf NaN).
Proof.
  clear. intros pbx pbf new m L1 L2 L3. unfold as_pb. assert (Lc : length (combine pbx pbf) = m) by (rewrite combine_length; lia). split; [apply map2_length; auto|].
  intros i Hi. rewrite (nth_map2 _ _ _ _ _ _ _ m ([], NaN) ([], NaN)) by auto. rewrite combine_nth by lia. reflexivity.
Qed.
(** the iteration given what makes it succeed *)
Definition no_alone (pop : list vec) : Prop := forall i, i < n -> as_near F (as_nl p) (as_rs F C) pop i <> [].
Lemma aso_iter_c : forall pop fit xb fxb pb l, X EValue \/ 2 <= d /\ no_alone pop -> AsoInv pop fit xb fxb pb l ->
  wp (KBX C X) (aso_iter F C p pop fit xb fxb pb) (fun a l' => let '(pop', fit', xb', fxb', pb') := a in AsoInv pop' fit' xb' fxb' pb' l' /\ no_worse (snd pb') (snd pb)) l.
Proof.
  intros pop fit xb fxb [pbx pbf] l Hx [[P1 P2 P3 P4 P5 P6] A2 A3 A4 A5]. unfold aso_iter. cbn [fst snd] in *. cbv zeta. rewrite P1.
  assert (HX : X EValue \/ 2 <= d) by (destruct Hx as [|[]]; auto). assert (Dp := dims_inside _ _ HC P3). assert (Lb : length pbf = n). { destruct A4 as [A4 _]. rewrite <- (Forall2_len _ _ _ _ _ A4). auto. }
  apply wp_bind. apply (w_mapM_seq _ _ (fun i j => True) _ _ 0). { intros i Q' Hi HQ. apply w_neighbor; [|intros; apply HQ; auto]. destruct Hx as [Hx|[_ Hx]]; [left; right; auto|right; apply Hx; auto]. }
  intros nbs _ _. apply wp_bind.
  eapply wp_conseq0; [apply (wp_mapM_acc _ _ (KBX C X) _ (fun new l' => ext l l' /\ Forall (inside C) (map fst new) /\ Forall2 (Seen l') (map fst new) (map snd new) /\ Forall (fun v => v <> NaN) (map snd new) /\ Cov l' (map snd new) fxb))|].
  - split; [apply ext_refl|]. split; [constructor|]. split; [constructor|]. split; [constructor|]. apply LB_Cov. apply P6.
  - intros pre i post bs l1 E Lbs (I1 & I2 & I3 & I5 & I4). assert (Hi : i < n). { assert (In i (seq 0 n)) by (rewrite E; apply in_or_app; right; left; auto). apply in_seq in H. lia. }
    apply wp_bind. apply w_integers_skip; auto. intros r _ Hr _. apply w_combine; auto.
    + apply (Forall_nth _ _ _ i _ P3). apply nth_error_nth'. lia.
    + apply dims_nthd; auto. lia.
    + apply dims_nthd; auto. lia.
    + intros y v l2 Hy (C1 & C2 & C3 & C4). rewrite !map_app. cbn [map fst snd]. split; [eapply ext_trans; eauto|]. split; [apply Forall_app; split; auto|].
      split; [apply Forall2_app; [eapply Seen2_ext; eauto|constructor; auto]|]. split; [apply Forall_app; split; auto|]. eapply Cov_incl; [|apply C4; exact I4]. intros g [<-|G]; apply in_or_app; [right; left; auto|left; auto].
  - intros new l' [(I1 & I2 & I3 & I5 & I4) Ln]. rewrite seq_length in Ln. apply wp_bind. apply w_get_best; auto.
    { destruct new; cbn [map length] in *; [lia|discriminate]. } { eapply Seen_ext; [exact I1|apply P6]. } { apply P6. }
    intros x f G Hxx. apply w_done.
    destruct (as_pb_spec pbx pbf new n A2 Lb Ln) as [S1 S2]. set (pb' := as_pb (combine pbx pbf) new) in *.
    assert (Q1 : forall i, i < n -> nth i (map snd pb') NaN = snd (nth i pb' ([], NaN))) by (intros i Hi; rewrite (nth_indep _ NaN (snd (@nil num, NaN))) by (rewrite map_length; lia); apply map_nth).
    assert (Q2 : forall i, i < n -> nth i (map snd new) NaN = snd (nth i new ([], NaN))) by (intros i Hi; rewrite (nth_indep _ NaN (snd (@nil num, NaN))) by (rewrite map_length; lia); apply map_nth).
    assert (N1 : forall i, i < n -> snd (nth i new ([], NaN)) <> NaN).
    { intros i Hi. rewrite <- Q2 by auto. apply (Forall_nth _ _ _ i _ I5). apply nth_error_nth'. rewrite map_length. lia. }
    destruct A4 as [B1 B2]. assert (Nb : Forall (fun v => v <> NaN) pbf) by (eapply Seen2_not_nan; [exact (Good_Cov _ _ _ [] P6)|exact B1]).
    assert (N2 : forall i, i < n -> nth i pbf NaN <> NaN) by (intros i Hi; apply (Forall_nth _ _ _ i _ Nb); apply nth_error_nth'; lia).
    assert (FN : forall (a b : list num), length a = n -> length b = n -> (forall i, i < n -> fleb (nth i a NaN) (nth i b NaN) = true) -> no_worse a b).
    { intros a b La Lb' H. unfold no_worse. revert b Lb' H. revert La. clearbody n. generalize n. clear. induction a as [|u a IH]; intros m La [|v b] Lb' H; cbn [length] in *; subst m; try discriminate; constructor; [apply (H 0); lia|]. apply (IH (length a)); auto. intros i Hi. apply (H (S i)). lia. }
    split; [constructor; cbn [fst snd]|].
    + constructor; auto; [rewrite map_length; auto|rewrite map_length; auto|]. destruct Hxx as [Hxx| ->]; auto. apply inside_len; auto. exact (proj1 (Forall_forall _ _) I2 _ Hxx).
    + rewrite map_length; auto.
    + apply (dims_of_nth d n); [rewrite map_length; auto|]. intros i Hi. rewrite (nth_indep _ [] (fst (@nil num, NaN))) by (rewrite map_length; lia). rewrite map_nth, S2 by auto.
      destruct (fltb _ _); [|apply dims_nthd; auto; lia]. apply inside_len; auto. apply (Forall_nth _ _ _ i _ I2). rewrite <- (map_nth fst). apply nth_error_nth'. rewrite map_length. lia.
    + split.
      * apply (Forall2_map_nth _ _ n S1). intros i Hi. rewrite S2 by auto. destruct (fltb _ _).
        -- assert (Z := Forall2_nth _ _ _ _ _ i (fst (nth i new ([], NaN))) (snd (nth i new ([], NaN))) I3). apply Z; [rewrite <- (map_nth fst)|rewrite <- (map_nth snd)]; apply nth_error_nth'; rewrite map_length; lia.
        -- cbn [fst snd]. eapply Seen_ext; [exact I1|]. apply (Forall2_nth _ _ _ _ _ i _ _ B1); apply nth_error_nth'; lia.
      * apply Forall_forall. intros g Hg. destruct (In_nth _ _ NaN Hg) as (i & Hi & <-). rewrite map_length, S1 in Hi. rewrite Q1, S2 by auto.
        assert (Ge : forall y v, Seen l' y v -> fleb f v = true) by (intros y v [->|Hv]; [apply fleb_PInf; apply G|apply (proj1 (proj2 G) y); auto]).
        destruct (fltb _ _).
        -- apply (Ge (fst (nth i new ([], NaN)))). apply (Forall2_nth _ _ _ _ _ i _ _ I3); [rewrite <- (map_nth fst)|rewrite <- (map_nth snd)]; apply nth_error_nth'; rewrite map_length; lia.
        -- cbn [snd]. apply (Ge (nth i pbx [])). eapply Seen_ext; [exact I1|]. apply (Forall2_nth _ _ _ _ _ i _ _ B1); apply nth_error_nth'; lia.
    + apply FN; [rewrite map_length; auto|rewrite map_length; auto|]. intros i Hi. rewrite Q1, Q2, S2 by auto. destruct (fltb _ _) eqn:E; [apply fleb_refl; auto|apply fltb_false_fleb; cbn [snd]; auto].
    + cbn [snd]. apply FN; [rewrite map_length; auto|auto|]. intros i Hi. rewrite Q1, S2 by auto. destruct (fltb _ _) eqn:E; [apply fltb_fleb; auto|apply fleb_refl; auto].
Qed.
Lemma aso_init_c : init_c (KBX C X) (aso F C p) AsoInv.
Proof.
  unfold init_c. cbn [a_init a_coords aso]. unfold aso_init. apply wp_bind. apply w_default_numpy_init; auto. intros pop fit l Lp Ip He. apply w_done.
  assert (Hne : pop <> []) by (destruct pop; cbn [length] in *; [unfold n in Hn; lia|congruence]). assert (Lf := Evals_len _ _ _ _ He). assert (Nf := Evals_nan _ _ _ _ He).
  assert (Sn := Evals_seen _ _ _ _ He). apply w_get_best0; auto. intros x f G Hx. cbn [fst snd].
  constructor; cbn [fst snd]; auto; [constructor; auto; [fold n in Lp; lia|apply inside_len; auto; exact (proj1 (Forall_forall _ _) Ip _ Hx)]|apply dims_inside; auto| |apply no_worse_refl; auto].
  split; auto. apply Forall_forall. intros g Hg. destruct (In_nth_error _ _ Hg) as [k Hk]. assert (k < length pop) by (rewrite <- Lf; apply nth_error_Some; congruence).
  destruct (Forall2_nth _ _ _ _ _ k (nth k pop []) g Sn) as [->|Hs]; auto; [apply nth_error_nth'; auto|apply fleb_PInf; apply G|exact (proj1 (proj2 G) _ _ Hs)].
Qed.
End Aso.
