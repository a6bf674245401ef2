(** Proofs about AlgSwarm.v. *)
From Coq Require Import ZArith Lia Bool List.
From Verif Require Import Num Task TaskSpec TaskProofs TaskProofs2 Prog Wp GetBest Run RunSpec RunProofs RunProofs2
  AlgoLib Fops AlgTac StepSpec StepLib Indiv IndivLib AlgSwarm PopLib.
Import ListNotations.

(** ** FireflyAlgorithm *)
Lemma w_fa_move : forall K F C p alpha xi xj (Q : vec -> elog -> Prop) l, cfg_ok C -> length xi = c_dim C -> length xj = c_dim C ->
  (forall y u, length u = c_dim C -> Forall in_unit u -> comps (c_dim C) y (fun k c => c = fadd F (nth k xi NaN) (fadd F
     (fmul F (fmul F (fa_beta0 p) (fexp F (fmul F (fneg (fa_gamma p)) (fpow F (euclidean F xi xj) (flit F 2 1))))) (fsub F (nth k xj NaN) (nth k xi NaN)))
     (fmul F (fmul F alpha (fsub F (nth k u NaN) (flit F 1 2))) (fsub F (nth k (c_upper C) NaN) (nth k (c_lower C) NaN))))) -> Q y l) ->
  wp K (fa_move F C p alpha xi xj) Q l.
Proof.
  intros K F C p alpha xi xj Q l HC L1 L2 HQ. unfold fa_move. apply wp_bind. apply w_random_vec_u. intros u Lu Uu. cbv zeta. apply w_done.
  apply (HQ _ u); auto. split; [dl|]. intros k Hk. nths (c_dim C). reflexivity.
Qed.

Definition FaOk (C : cfg) (n : nat) (s : list vec * list num * vec * num) (l : elog) : Prop :=
  let '(pop, fit, xb, fxb) := s in PopInv C n pop fit xb fxb l.
Lemma w_fa_pair : forall F C X p alpha i s j l, cfg_ok C -> i < fa_n p -> j < fa_n p -> FaOk C (fa_n p) s l ->
  wp (KBX C X) (fa_pair F C p alpha i s j) (FaOk C (fa_n p)) l.
Proof.
  intros F C X p alpha i [[[pop fit] xb] fxb] j l HC Hi Hj HI. assert (D := pi_dims _ _ _ _ _ _ _ HC HI). assert (HI' := HI).
  destruct HI' as [P1 P2 P3 P4 P5 P6].
  unfold fa_pair. ws. destruct (fleb _ _); [|ws; exact HI]. cbv beta.
  apply wp_bind. apply w_nthP; [lia|]. intros xi Exi. apply wp_bind. apply w_nthP; [lia|]. intros xj Exj.
  apply wp_bind. apply w_fa_move; auto; try dnth. intros y u _ _ [Ly _]. ws.
  eapply w_best_row; eauto.
Qed.
Lemma w_fa_iter : forall F C X p pop fit xb fxb alpha l, cfg_ok C -> PopInv C (fa_n p) pop fit xb fxb l ->
  wp (KBX C X) (fa_iter F C p pop fit xb fxb alpha) (fun a l' => let '(pop', fit', xb', fxb', par') := a in
     PopInv C (fa_n p) pop' fit' xb' fxb' l' /\ True) l.
Proof.
  intros F C X p pop fit xb fxb alpha l HC HI. unfold fa_iter. cbv zeta. apply wp_bind. eapply wp_conseq0.
  - apply (wp_for_range _ _ _ _ (fun _ s l' => FaOk C (fa_n p) s l')); [exact HI|].
    intros i s l' Hi Hs. apply (wp_for_range _ _ _ _ (fun _ s l' => FaOk C (fa_n p) s l')); [exact Hs|].
    intros j s' l'' Hj Hs'. apply w_fa_pair; auto.
  - intros [[[pop' fit'] xb'] fxb'] l' H. apply w_done. auto.
Qed.

(** ** CuckooSearch *)
Lemma w_levy_mat : forall K F n d (Q : list vec -> elog -> Prop) l,
  (forall m u v, length u = n -> dims d u -> length v = n -> dims d v -> m = map2 (map2 (levy1 F)) u v -> length m = n -> dims d m -> Q m l) -> wp K (levy_mat F n d) Q l.
Proof.
  intros K F n d Q l H. unfold levy_mat. apply wp_bind. apply w_rnd_f_mat. intros u L1 D1. apply wp_bind. apply w_rnd_f_mat. intros v L2 D2.
  apply w_done. apply (H _ u v); auto. apply map2_length; auto. apply dims_map2v; auto.
Qed.
(** component k of row i of the two moves *)
Definition cuckoo_eq (F : fops) (C : cfg) (pop : list vec) (xb : vec) (new : list vec) : Prop :=
  length new = length pop /\ forall i, i < length pop -> comps (c_dim C) (nth i new []) (fun k c => exists u v z,
    c = fadd F (nth k (nth i pop []) NaN) (fmul F (fmul F
          (fdiv F (fmul F (flit F 1 100) u) (fpow F (fabs F v) (fdiv F (flit F 1 1) (flit F 3 2))))
          (fsub F (nth k (nth i pop []) NaN) (nth k xb NaN))) z)).
Lemma cuckoo_dims : forall F C pop xb new, cuckoo_eq F C pop xb new -> dims (c_dim C) new.
Proof.
  intros F C pop xb new [L H]. apply Forall_forall. intros x Hx. apply (In_nth _ _ []) in Hx. destruct Hx as (i & Hi & <-).
  apply (H i). lia.
Qed.
Lemma nth_mapr : forall A B (f : A -> B) xs i d d', i < length xs -> nth i (map f xs) d' = f (nth i xs d).
Proof. intros A B f xs i d d' H. apply (nth_mapn _ _ f xs i (length xs)); auto. Qed.
Lemma w_get_cuckoos : forall K F C pop xb (Q : list vec -> elog -> Prop) l, dims (c_dim C) pop -> length xb = c_dim C ->
  (forall new, cuckoo_eq F C pop xb new -> Q new l) -> wp K (get_cuckoos F C pop xb) Q l.
Proof.
  intros K F C pop xb Q l D Lx HQ. unfold get_cuckoos. cbv zeta. apply wp_bind. apply w_levy_mat. intros m u v Lu Du Lv Dv Em Lm Dm.
  apply wp_bind. apply w_rnd_f_mat. intros z Lz Dz. apply w_done. apply HQ. subst m.
  set (n := length pop) in *. set (d := c_dim C) in *.
  assert (Ls : length (map (fun x => vsub F x xb) pop) = n) by (rewrite map_length; auto).
  assert (Ds : dims d (map (fun x => vsub F x xb) pop)).
  { apply dims_mapv. intros x Hx. assert (length x = d) by dnth. dl. }
  unfold vmul, vadd.
  assert (L1 := map2_length _ _ _ (map2 (fmul F)) _ _ n Lm Ls).
  assert (D1 := dims_map2v d (fmul F) _ _ Dm Ds).
  assert (L2 := map2_length _ _ _ (map2 (fmul F)) _ _ n L1 Lz).
  assert (D2 := dims_map2v d (fmul F) _ _ D1 Dz).
  assert (L3 := map2_length _ _ _ (map2 (fadd F)) pop _ n eq_refl L2).
  assert (D3 := dims_map2v d (fadd F) pop _ D D2).
  split; auto. intros i Hi. split; [apply dims_nthd; auto; lia|]. intros k Hk.
  exists (nth k (nth i u []) NaN), (nth k (nth i v []) NaN), (nth k (nth i z []) NaN).
  rewrite (nth_mat2 _ _ _ i k n d), (nth_mat2 _ _ _ i k n d), (nth_mat2 _ _ _ i k n d), (nth_mat2 _ _ _ i k n d); auto.
  rewrite (nth_mapr _ _ (fun x => vsub F x xb) pop i []) by auto. assert (length (nth i pop []) = d) by (apply dims_nthd; auto).
  nths d. reflexivity.
Qed.
Definition nests_eq (F : fops) (C : cfg) (pa : num) (pop new : list vec) : Prop :=
  length new = length pop /\ exists r p1 p2, in_unit r /\
   (forall p, p = p1 \/ p = p2 -> length p = length pop /\ NoDup p /\ forall k, In k p -> k < length pop) /\
   forall i, i < length pop -> comps (c_dim C) (nth i new []) (fun k c => exists u, in_unit u /\
    c = fadd F (nth k (nth i pop []) NaN) (fmul F
          (fmul F r (fsub F (nth k (nth (nth i p1 0) pop []) NaN) (nth k (nth (nth i p2 0) pop []) NaN)))
          (if fltb pa u then f1 else f0))).
Lemma nests_dims : forall F C pa pop new, nests_eq F C pa pop new -> dims (c_dim C) new.
Proof.
  intros F C pa pop new [L (r & p1 & p2 & _ & _ & H)]. apply Forall_forall. intros x Hx. apply (In_nth _ _ []) in Hx. destruct Hx as (i & Hi & <-).
  apply (H i). lia.
Qed.
Lemma w_pick : forall K (pop : list vec) p (Q : list vec -> elog -> Prop) l, (forall k, In k p -> k < length pop) ->
  (forall xs, xs = map (fun k => nth k pop []) p -> Q xs l) -> wp K (mapM (fun k => nthP pop k) p) Q l.
Proof.
  intros K pop p. induction p as [|k p IH]; intros Q l Hk HQ; cbn [mapM]; [apply w_done; auto|].
  apply wp_bind. apply w_nthP; [apply Hk; simpl; auto|]. intros x Hx. apply wp_bind. apply IH; [intros; apply Hk; simpl; auto|].
  intros xs ->. apply w_done. apply HQ. simpl. rewrite (nth_error_nth _ _ [] Hx). reflexivity.
Qed.
Lemma w_empty_nests : forall K F C pa n pop (Q : list vec -> elog -> Prop) l, dims (c_dim C) pop -> length pop = n ->
  (forall new, nests_eq F C pa pop new -> Q new l) -> wp K (empty_nests F C pa n pop) Q l.
Proof.
  intros K F C pa n pop Q l D Ln HQ. unfold empty_nests. apply wp_bind. apply w_random_mat. intros u Lu Du Uu. cbv zeta.
  apply wp_bind. apply w_permutation. intros p1 A1 A2 A3. apply wp_bind. apply w_permutation. intros p2 B1 B2 B3.
  apply wp_bind. apply w_random_u. intros r Hr. apply wp_bind. apply w_pick; [intros k Hk; rewrite Ln; auto|]. intros x1 ->.
  apply wp_bind. apply w_pick; [intros k Hk; rewrite Ln; auto|]. intros x2 ->. apply w_done. apply HQ. rewrite Ln in *.
  set (d := c_dim C) in *.
  assert (X : forall p, length p = n -> (forall k, In k p -> k < n) -> length (map (fun k => nth k pop []) p) = n /\ dims d (map (fun k => nth k pop []) p)).
  { intros p H1 H2. split; [rewrite map_length; auto|]. apply dims_mapv. intros k Hk. apply dims_nthd; auto. rewrite Ln. auto. }
  destruct (X p1 A1 A3) as [L1 D1]. destruct (X p2 B1 B3) as [L2 D2]. unfold vmul, vadd, vsub.
  assert (L3 := map2_length _ _ _ (map2 (fsub F)) _ _ n L1 L2).
  assert (D3 := dims_map2v d (fsub F) _ _ D1 D2).
  set (m := map2 (map2 (fsub F)) _ _) in *.
  assert (L4 : length (map (vscale F r) m) = n) by (rewrite map_length; auto).
  assert (D4 : dims d (map (vscale F r) m)) by (apply dims_mapv; intros x Hx; assert (length x = d) by dnth; dl).
  set (ab := map (map (fun r0 => if fltb pa r0 then f1 else f0)) u).
  assert (L5 : length ab = n) by (unfold ab; rewrite map_length; auto).
  assert (D5 : dims d ab) by (apply dims_mapv; intros x Hx; assert (length x = d) by dnth; dl).
  assert (L6 := map2_length _ _ _ (map2 (fmul F)) _ _ n L4 L5).
  assert (D6 := dims_map2v d (fmul F) _ _ D4 D5).
  assert (L7 := map2_length _ _ _ (map2 (fadd F)) pop _ n Ln L6).
  assert (D7 := dims_map2v d (fadd F) pop _ D D6).
  split; auto. { congruence. } exists r, p1, p2. split; auto. split.
  { rewrite Ln. intros p [-> | ->]; auto. }
  rewrite Ln. intros i Hi. split; [apply dims_nthd; auto; lia|]. intros k Hk.
  exists (nth k (nth i u []) NaN). split.
  { apply nth_in_unit. apply (proj1 (Forall_forall _ _) Uu). apply nth_In; lia. rewrite (dims_nthd d); auto. lia. }
  rewrite (nth_mat2 _ _ _ i k n d), (nth_mat2 _ _ _ i k n d); auto.
  rewrite (nth_mapr _ _ (vscale F r) m i []) by lia. unfold vscale. rewrite (nth_mapn _ _ _ _ _ d NaN NaN); [|apply dims_nthd; auto; lia|auto].
  unfold m. rewrite (nth_mat2 _ _ _ i k n d); auto.
  rewrite (nth_mapr _ _ (fun k => nth k pop []) p1 i 0), (nth_mapr _ _ (fun k => nth k pop []) p2 i 0) by lia.
  unfold ab. rewrite (nth_mapr _ _ (map (fun r0 => if fltb pa r0 then f1 else f0)) u i []) by lia.
  rewrite (nth_mapn _ _ (fun r0 => if fltb pa r0 then f1 else f0) (nth i u []) k d NaN NaN); [|apply dims_nthd; auto; lia|auto].
  reflexivity.
Qed.

(** replacing the better ones *)
Lemma replace_better_spec : forall pop fit new nfit, length fit = length pop -> length new = length pop -> length nfit = length pop ->
  let r := replace_better pop fit new nfit in
  length (fst r) = length pop /\ length (snd r) = length pop /\
  forall i x f y g, nth_error pop i = Some x -> nth_error fit i = Some f -> nth_error new i = Some y -> nth_error nfit i = Some g ->
    (fltb g f = true -> nth_error (fst r) i = Some y /\ nth_error (snd r) i = Some g) /\
    (fltb g f = false -> nth_error (fst r) i = Some x /\ nth_error (snd r) i = Some f).
Proof.
  induction pop as [|x pop IH]; intros [|f fit] [|y new] [|g nfit]; simpl; intros L1 L2 L3; try discriminate.
  - split; [reflexivity|]. split; [reflexivity|]. intros [|i]; simpl; discriminate.
  - destruct (IH fit new nfit) as (H1 & H2 & H3); try lia. destruct (replace_better pop fit new nfit) as [ps fs]. simpl in *.
    assert (G1 : length (fst (if fltb g f then (y :: ps, g :: fs) else (x :: ps, f :: fs))) = S (length pop)) by (destruct (fltb g f); simpl; auto).
    assert (G2 : length (snd (if fltb g f then (y :: ps, g :: fs) else (x :: ps, f :: fs))) = S (length pop)) by (destruct (fltb g f); simpl; auto).
    split; auto. split; auto. intros [|i] x' f' y' g'; simpl; intros E1 E2 E3 E4.
    + inversion E1; inversion E2; inversion E3; inversion E4; subst. destruct (fltb g' f'); simpl; split; intros; try discriminate; auto.
    + specialize (H3 i x' f' y' g' E1 E2 E3 E4). destruct (fltb g f); simpl; auto.
Qed.
Lemma replace_better_P : forall C l pop fit new nfit, Forall (inside C) pop -> Forall (inside C) new ->
  Forall2 (Seen l) pop fit -> Forall2 (Seen l) new nfit -> length new = length pop ->
  Forall (fun f => f <> NaN) fit -> Forall (fun f => f <> NaN) nfit ->
  let r := replace_better pop fit new nfit in
  length (fst r) = length pop /\ Forall (inside C) (fst r) /\ Forall2 (Seen l) (fst r) (snd r) /\ down (snd r) fit /\
  (forall g, In g nfit -> exists f, In f (snd r) /\ fleb f g = true).
Proof.
  intros C l pop fit new nfit H1 H2 H3. revert new nfit H1 H2. induction H3 as [|x f pop fit Hs Hss IH]; intros new nfit H1 H2 H4 L N1 N2.
  - destruct new; [|discriminate]. inversion H4; subst. simpl. repeat split; try constructor. intros g [].
  - destruct H4 as [|y g new nfit Hy Hys]; [discriminate|]. inversion H1; subst. inversion H2; subst. inversion N1; subst. inversion N2; subst. simpl.
    destruct (IH new nfit) as (G1 & G2 & G3 & G4 & G5); auto. destruct (replace_better pop fit new nfit) as [ps fs]. simpl in *.
    destruct (fltb g f) eqn:Q; simpl; (split; [auto|]); (split; [auto|]); (split; [auto|]); split.
    + constructor; auto. apply fltb_fleb; auto.
    + intros g' [<-|Hg]; [exists g; split; auto; apply fleb_refl; auto|]. destruct (G5 g' Hg) as (f' & F1 & F2). eauto.
    + constructor; auto. apply fleb_refl; auto.
    + intros g' [<-|Hg]; [exists f; split; auto; apply fltb_false_fleb; auto|]. destruct (G5 g' Hg) as (f' & F1 & F2). eauto.
Qed.
Lemma w_mapM_repair : forall C X pop (Q : list vec -> elog -> Prop) l, dims (c_dim C) pop ->
  (forall ys, length ys = length pop -> Forall (inside C) ys -> Q ys l) -> wp (KBX C X) (mapM repair pop) Q l.
Proof.
  intros C X pop. induction pop as [|x pop IH]; intros Q l D HQ; cbn [mapM]; [apply w_done; auto|]. inversion D; subst.
  apply wp_bind. apply w_repair; auto. intros y Hy. apply wp_bind. apply IH; auto. intros ys L Hys. apply w_done. apply HQ; simpl; auto.
Qed.
Lemma w_cs_phase : forall C X mat n new pop fit xb fxb l, cfg_ok C -> 0 < n -> mat = true \/ X EIndex ->
  length new = n -> dims (c_dim C) new -> PopInv C n pop fit xb fxb l ->
  wp (KBX C X) (cs_phase mat new pop fit xb fxb) (fun a l' => let '(pop', fit', xb', fxb') := a in
    PopInv C n pop' fit' xb' fxb' l' /\ down fit' fit) l.
Proof.
  intros C X mat n new pop fit xb fxb l HC Hn Hm Ln Dn HI. assert (N1 := pi_nan _ _ _ _ _ _ _ HI). destruct HI as [P1 P2 P3 P4 P5 P6].
  unfold cs_phase, repair_matrix. apply wp_bind. destruct mat.
  2:{ destruct Hm as [Hm|Hm]; [discriminate|]. simpl. auto. }
  apply w_mapM_repair; auto. intros ys Ly Hy. apply wp_bind.
  apply w_eval_all; auto. { destruct ys; simpl in *; [lia|congruence]. }
  intros gs l' He. assert (Hx := Evals_ext _ _ _ _ He). assert (N2 := Evals_nan _ _ _ _ He).
  destruct (replace_better_P C l' pop fit ys gs) as (G1 & G2 & G3 & G4 & G5); auto; try lia.
  { eapply Seen2_ext; eauto. } { eapply Evals_seen; eauto. }
  destruct (replace_better pop fit ys gs) as [pop' fit']. simpl in *. apply wp_bind.
  assert (L' := down_len _ _ G4).
  apply w_get_best; auto.
  - intros ->. simpl in L'. lia.
  - eapply Seen_ext; eauto. apply P6.
  - apply P6.
  - eapply Cov_dom; [eapply (Cov_Evals ys gs l l' []); eauto; eapply Good_Cov; eauto|]. intros f Hf _. rewrite app_nil_r in Hf. auto.
  - intros x f HG Hx'. apply w_done. split; auto. constructor; auto; try lia.
    destruct Hx' as [Hx'| ->]; auto. apply inside_len; auto. rewrite Forall_forall in G2. auto.
Qed.
Lemma w_cs_iter : forall F C X mat n pa pop fit xb fxb par l, cfg_ok C -> 0 < n -> mat = true \/ X EIndex -> PopInv C n pop fit xb fxb l ->
  wp (KBX C X) (cs_iter F C mat n pa pop fit xb fxb par) (fun a l' => let '(pop', fit', xb', fxb', par') := a in
     (PopInv C n pop' fit' xb' fxb' l' /\ True) /\ no_worse_fit (fit, xb, fxb) (fit', xb', fxb')) l.
Proof.
  intros F C X mat n pa pop fit xb fxb par l HC Hn Hm HI. assert (D := pi_dims _ _ _ _ _ _ _ HC HI). unfold cs_iter.
  apply wp_bind. apply w_get_cuckoos; auto; [apply HI|]. intros new1 Hn1. apply wp_bind. eapply wp_conseq0.
  { apply (w_cs_phase C X mat n new1); auto. destruct Hn1 as [Hn1 _]. rewrite Hn1. apply HI. eapply cuckoo_dims; eauto. }
  intros [[[pop1 fit1] xb1] fxb1] l1 [HI1 Hd1]. assert (D1 := pi_dims _ _ _ _ _ _ _ HC HI1).
  apply wp_bind. apply w_empty_nests; auto; [apply HI1|]. intros new2 Hn2. apply wp_bind. eapply wp_conseq0.
  { apply (w_cs_phase C X mat n new2); eauto. destruct Hn2 as [Hn2 _]. rewrite Hn2. apply HI1. eapply nests_dims; eauto. }
  intros [[[pop2 fit2] xb2] fxb2] l2 [HI2 Hd2]. apply w_done. split; auto. apply (down_trans _ _ _ Hd2 Hd1).
Qed.
Lemma plain_init_ok : forall C X n (I : list vec -> list num -> unit -> Prop) (Q : list vec * list num * unit -> elog -> Prop), cfg_ok C -> 0 < n ->
  (forall pop fit, I pop fit tt) ->
  (forall pop fit par l, length pop = n -> Forall (inside C) pop -> Evals pop fit [] l -> I pop fit par -> Q (pop, fit, par) l) ->
  wp (KBX C X) (plain_init C n) Q [].
Proof.
  intros C X n I Q HC Hn HI HQ. unfold plain_init. apply wp_bind. apply w_default_numpy_init; auto.
  intros pop fit l Hl Hin He. apply w_done. auto.
Qed.

(** ** FlowerPollinationAlgorithm *)
Lemma w_levy_vec : forall K F d (Q : vec -> elog -> Prop) l,
  (forall u v, length u = d -> length v = d -> Q (map2 (levy1 F) u v) l) -> wp K (levy_vec F d) Q l.
Proof.
  intros K F d Q l H. unfold levy_vec. apply wp_bind. apply w_rnd_f_vec. intros u Lu. apply wp_bind. apply w_rnd_f_vec. intros v Lv. apply w_done. auto.
Qed.
Definition flower_eq (F : fops) (C : cfg) (n : nat) (pr : num) (pop sol : list vec) (xb : vec) (i : nat) (y : vec) : Prop :=
  exists u, in_unit u /\
  (fltb pr u = true -> comps (c_dim C) y (fun k c => exists a b,
     c = fadd F (nth k (nth i pop []) NaN) (fmul F
           (fdiv F (fmul F (flit F 1 100) a) (fpow F (fabs F b) (fdiv F (flit F 1 1) (flit F 3 2))))
           (fsub F (nth k (nth i pop []) NaN) (nth k xb NaN))))) /\
  (fltb pr u = false -> exists j m r, j < n /\ m < n /\ j <> m /\ in_unit r /\ comps (c_dim C) y (fun k c =>
     c = fadd F (nth k (nth i sol []) NaN) (fmul F r (fsub F (nth k (nth j pop []) NaN) (nth k (nth m pop []) NaN))))).
Lemma w_fpa_move : forall K F C n pr pop sol xb i (Q : vec -> elog -> Prop) l, 2 <= n -> length pop = n -> length sol = n ->
  dims (c_dim C) pop -> dims (c_dim C) sol -> length xb = c_dim C -> i < n ->
  (forall y, length y = c_dim C -> flower_eq F C n pr pop sol xb i y -> Q y l) -> wp K (fpa_move F C n pr pop sol xb i) Q l.
Proof.
  intros K F C n pr pop sol xb i Q l Hn Lp Ls Dp Ds Lx Hi HQ. unfold fpa_move. apply wp_bind. apply w_random_u. intros u Hu.
  destruct (fltb pr u) eqn:Eu.
  - apply wp_bind. apply w_levy_vec. intros a b La Lb. apply wp_bind. apply w_nthP; [lia|]. intros xi Exi. apply w_done.
    assert (length xi = c_dim C) by dnth. apply HQ; [dl|]. exists u. split; auto. split; [|congruence]. intros _. split; [dl|].
    intros k Hk. exists (nth k a NaN), (nth k b NaN). nths (c_dim C). rewrite (nth_error_nth _ _ [] Exi). reflexivity.
  - apply wp_bind. apply w_choice; auto. intros jk Ljk Njk Hjk. apply wp_bind. apply w_nthP; [lia|]. intros j Ej. apply wp_bind. apply w_nthP; [lia|]. intros m Em.
    assert (j < n) by (apply Hjk; eapply nth_error_In; eauto). assert (m < n) by (apply Hjk; eapply nth_error_In; eauto).
    apply wp_bind. apply w_nthP; [lia|]. intros si Esi. apply wp_bind. apply w_random_u. intros r Hr.
    apply wp_bind. apply w_nthP; [lia|]. intros xj Exj. apply wp_bind. apply w_nthP; [lia|]. intros xk Exk. apply w_done.
    assert (length si = c_dim C) by dnth. assert (length xj = c_dim C) by dnth. assert (length xk = c_dim C) by dnth.
    apply HQ; [dl|]. exists u. split; auto. split; [congruence|]. intros _. exists j, m, r. split; auto. split; auto. split.
    { destruct jk as [|a [|b [|]]]; simpl in *; try discriminate. inversion Ej; inversion Em; subst. inversion Njk; subst. intros ->. apply H6. simpl; auto. }
    split; auto. split; [dl|]. intros k Hk. nths (c_dim C).
    rewrite (nth_error_nth _ _ [] Exj), (nth_error_nth _ _ [] Exk), (nth_error_nth _ _ [] Esi). reflexivity.
Qed.
Definition FlOk (C : cfg) (n : nat) (g0 : list num) (s : flowers) (l : elog) : Prop :=
  PopInv C n (fl_pop s) (fl_fit s) (fl_xb s) (fl_fxb s) l /\ length (fl_sol s) = n /\ dims (c_dim C) (fl_sol s) /\ down (fl_fit s) g0.
Lemma w_fpa_step : forall F C X n pr g0 s i l, cfg_ok C -> 2 <= n -> i < n -> FlOk C n g0 s l ->
  wp (KBX C X) (fpa_step F C n pr s i) (FlOk C n g0) l.
Proof.
  intros F C X n pr g0 s i l HC Hn Hi (HI & Ls & Ds & Hd). assert (D := pi_dims _ _ _ _ _ _ _ HC HI).
  assert (L1 := pi_pop _ _ _ _ _ _ _ HI). assert (L2 := pi_fit _ _ _ _ _ _ _ HI). assert (L3 := pi_xb _ _ _ _ _ _ _ HI).
  unfold fpa_step. apply wp_bind. apply w_fpa_move; auto. intros y Ly _. apply wp_bind. apply w_repair; auto. intros x Hx.
  assert (Lx : length x = c_dim C) by (apply inside_len; auto).
  apply wp_bind. apply w_setP; [lia|]. apply wp_bind. apply w_eval; auto. intros f l' He. apply wp_bind. apply w_nthP; [lia|]. intros fi Efi. cbv zeta.
  destruct (fleb f fi) eqn:Q.
  - apply wp_bind. apply w_setP; [lia|]. apply wp_bind. apply w_setP; [lia|]. apply w_done.
    split; [|split; [|split]]; cbn [fl_pop fl_fit fl_xb fl_fxb fl_sol].
    + eapply pi_set_row; eauto.
    + rewrite upd_length; auto.
    + apply dims_upd; auto.
    + eapply down_upd; eauto.
  - apply wp_bind. apply w_done. apply wp_bind. apply w_done. apply w_done.
    split; [|split; [|split]]; cbn [fl_pop fl_fit fl_xb fl_fxb fl_sol].
    + eapply pi_keep_row; eauto.
    + rewrite upd_length; auto.
    + apply dims_upd; auto.
    + auto.
Qed.
Lemma w_fpa_iter : forall F C X n pr pop fit xb fxb sol l, cfg_ok C -> 2 <= n -> PopInv C n pop fit xb fxb l -> length sol = n /\ dims (c_dim C) sol ->
  wp (KBX C X) (fpa_iter F C n pr pop fit xb fxb sol) (fun a l' => let '(pop', fit', xb', fxb', par') := a in
     (PopInv C n pop' fit' xb' fxb' l' /\ (length par' = n /\ dims (c_dim C) par')) /\ no_worse_fit (fit, xb, fxb) (fit', xb', fxb')) l.
Proof.
  intros F C X n pr pop fit xb fxb sol l HC Hn HI [H1 H2]. unfold fpa_iter. apply wp_bind. eapply wp_conseq0.
  - apply (wp_for_range _ _ _ _ (fun _ s l' => FlOk C n fit s l')).
    + split; auto. split; auto. split; auto. apply down_refl. eapply pi_nan; eauto.
    + intros i s l' Hi Hs. apply w_fpa_step; auto.
  - intros s l' (G1 & G2 & G3 & G4). apply w_done. auto.
Qed.
