(** Proofs about AlgMts.v. *)
From Coq Require Import ZArith Lia Bool List.
From Verif Require Import Num Task TaskSpec TaskProofs TaskProofs2 Prog Wp GetBest Run RunSpec AlgoLib Fops AlgTac StepSpec StepLib Reach Indiv IndivLib AlgEvoProofs KeepLib
  AlgPSO AlgBasic AlgBasic2 AlgMts.
Import ListNotations.

(** the array that best_x is *)
Definition bv (x : vec) (b : option vec) : vec := match b with Some y => y | None => x end.
(** the searches whose solution is always one that was evaluated with the value that goes with it *)
Definition honest (k : lsearch) : bool := match k with LS1 | LS2 | LS3v1 => true | LS1v1 | LS3 => false end.
(** how value and improve change *)
Definition moved (f : num) (imp : bool) (f' : num) (imp' : bool) : Prop := (f' = f /\ imp' = imp) \/ (fltb f' f = true /\ imp' = true).
Lemma moved_refl : forall f i, moved f i f i.
Proof. left; auto. Qed.
Lemma moved_trans : forall f i g j h k, moved f i g j -> moved g j h k -> moved f i h k.
Proof.
  intros f i g j h k [[-> ->]|[H1 H2]] [[-> ->]|[H3 H4]]; [left|right|right|right]; auto. split; auto. eapply fltb_trans; eauto.
Qed.
Lemma moved_le : forall f i g j, f <> NaN -> moved f i g j -> fleb g f = true.
Proof. intros f i g j H [[-> _]|[G _]]; [apply fleb_refl; auto|apply fltb_fleb; auto]. Qed.

Section Mts.
Variables (F : fops) (C : cfg) (kp : Prop) (X : exn -> Prop).
Hypothesis HC : cfg_ok C.
Let K := KRX C (fun x y => kp -> length x = c_dim C -> keeps C x y) (inside C) X.

(** the best pair: good for the log; the value is at most that of the current solution, and equal to it when the two arrays are one *)
Definition Jb (l : elog) (x : vec) (f : num) (b : option vec) (bf : num) : Prop :=
  inside C (bv x b) /\ Good l (bv x b) bf /\ fleb bf f = true /\ (b = None -> bf = f).
Definition J (h : bool) (l : elog) (x : vec) (f : num) (b : option vec) (bf : num) : Prop :=
  inside C x /\ (h = true -> Seen l x f) /\ Jb l x f b bf.

Lemma Jb_nan : forall l x f b bf, Jb l x f b bf -> f <> NaN /\ bf <> NaN.
Proof. intros l x f b bf (_ & _ & H & _). split; [eapply fleb_nan_r; eauto|eapply fleb_nan_l; eauto]. Qed.
Lemma Jb_eval : forall l l' x f b bf y v, Jb l x f b bf -> inside C y -> Evald y v l l' ->
  let t := if fltb v bf then (Some y, v) else (b, bf) in Jb l' x f (fst t) (snd t) /\ fleb (snd t) v = true /\ (fst t = None -> fleb f v = true).
Proof.
  intros l l' x f b bf y v H Hy He. destruct (Jb_nan _ _ _ _ _ H) as [Nf Nb]. destruct H as (H1 & H2 & H3 & H4). assert (Nv := Evald_nan _ _ _ _ He).
  destruct (fltb v bf) eqn:Q; cbn [fst snd].
  - split; [|split; [apply fleb_refl; auto|discriminate]]. split; [exact Hy|]. split; [|split; [|discriminate]].
    + cbn [bv]. eapply Good_take; eauto. apply fltb_fleb; auto.
    + eapply fleb_trans; [apply fltb_fleb; exact Q|exact H3].
  - apply fltb_false_fleb in Q; auto. split; [|split; [exact Q|intros Z; rewrite <- (H4 Z); exact Q]].
    split; [auto|]. split; [|auto]. eapply Good_keep; eauto. apply fleb_fltb_false; auto.
Qed.
(** a new solution when best_x is an array of its own *)
Lemma Jb_move : forall l x f b bf y v, Jb l x f b bf -> b <> None -> fleb bf v = true -> Jb l y v b bf.
Proof. intros l x f [b|] bf y v (H1 & H2 & H3 & H4) Hb Hv; [|congruence]. split; [auto|]. split; [auto|]. split; [auto|discriminate]. Qed.
Lemma Jb_back : forall l x f b bf y, Jb l x f b bf -> (b = None -> y = x) -> Jb l y f b bf.
Proof. intros l x f [b|] bf y H Hy; [|rewrite Hy; auto]. destruct H as (H1 & H2 & H3 & H4). split; [auto|]. split; [auto|]. split; auto. Qed.
Lemma J_start : forall h l x f b bf, J h l x f b bf -> length x = c_dim C.
Proof. intros h l x f b bf (H & _). apply inside_len; auto. Qed.

Lemma shrink_len : forall imp sr, length sr = c_dim C -> length (shrink F C imp sr) = c_dim C.
Proof. intros [|] sr H; simpl; auto. apply map2_length; auto. unfold trange. dl. Qed.

(** ** mts_ls1 *)
Definition lst_ok (h : bool) (f : num) (imp : bool) (b : option vec) (s : lst) (l : elog) : Prop :=
  let '(x', f', b', bf', imp', _) := s in J h l x' f' b' bf' /\ moved f imp f' imp' /\ (b <> None -> b' <> None).
Lemma w_ls1_step : forall b1 b2 sr h x f b bf imp g i l, length sr = c_dim C -> i < c_dim C -> (h = true -> kp) -> (b = None -> kp) -> J h l x f b bf ->
  wp K (ls1_step F b1 b2 sr (x, f, b, bf, imp, g) i) (lst_ok h f imp b) l.
Proof.
  intros b1 b2 sr h x f b bf imp g i l Ls Hi Hh Hb (Hx & HS & HJ). unfold ls1_step. assert (Lx := inside_len _ _ HC Hx).
  destruct (Jb_nan _ _ _ _ _ HJ) as [Nf Nb].
  apply wp_bind. apply w_nthP; [lia|]. intros old Eo. apply wp_bind. apply w_nthP; [lia|]. intros si Es.
  apply wp_bind. apply w_repair_r; [dl|]. intros x1 I1 K1. assert (L1 := inside_len _ _ HC I1).
  apply wp_bind. apply w_eval_r; [auto|]. intros v l1 E1.
  assert (B1 := Jb_eval _ _ _ _ _ _ _ _ HJ I1 E1). set (t := if fltb v bf then (Some x1, v) else (b, bf)) in *.
  assert (Et : (if fltb v bf then (Some x1, v, fadd F g b1) else (b, bf, g)) = (fst t, snd t, if fltb v bf then fadd F g b1 else g)).
  { unfold t. destruct (fltb v bf); reflexivity. }
  assert (Ht : b <> None -> fst t <> None) by (unfold t; destruct (fltb v bf); [discriminate|auto]).
  assert (Ht' : fst t = None -> b = None) by (unfold t; destruct (fltb v bf); [discriminate|auto]).
  rewrite Et. cbv zeta beta iota. clear Et. set (g1 := if fltb v bf then fadd F g b1 else g) in *. clearbody t g1. destruct t as [b' bf']. cbn [fst snd] in *. destruct B1 as (J1 & V1 & N1).
  assert (S1 : h = true -> Seen l1 x f) by (intros Q; eapply Seen_ext; [eapply Evald_ext; exact E1|auto]).
  assert (Bk1 : kp -> upd x1 i old = x) by (intros Q; eapply put_back; eauto; apply K1; [exact Q|dl]).
  assert (Ib1 : inside C (upd x1 i old)) by exact (inside_upd C x x1 i old HC I1 Hx Eo).
  assert (Nv := Evald_nan _ _ _ _ E1).
  destruct (feqb v f) eqn:Q1.
  { apply wp_bind. apply w_setP; [lia|]. apply w_done. cbn [lst_ok]. split; [|split; [apply moved_refl|auto]]. split; [auto|]. split.
    - intros Q. rewrite Bk1; auto.
    - eapply Jb_back; eauto. }
  destruct (fltb f v) eqn:Q2.
  - apply wp_bind. apply w_setP; [lia|]. apply wp_bind. apply w_repair_r; [dl|]. intros x2 I2 K2. assert (L2 := inside_len _ _ HC I2).
    apply wp_bind. apply w_eval_r; [auto|]. intros w l2 E2.
    assert (B2 := Jb_eval _ _ _ _ _ _ _ _ J1 I2 E2). set (t := if fltb w bf' then (Some x2, w) else (b', bf')) in *.
    assert (Et : (if fltb w bf' then (Some x2, w, fadd F g1 b1) else (b', bf', g1)) = (fst t, snd t, if fltb w bf' then fadd F g1 b1 else g1)).
    { unfold t. destruct (fltb w bf'); reflexivity. }
    assert (Hu : b <> None -> fst t <> None) by (unfold t; destruct (fltb w bf'); [discriminate|auto]).
    assert (Hu' : fst t = None -> b = None) by (unfold t; destruct (fltb w bf'); [discriminate|auto]).
    rewrite Et. cbv zeta beta iota. clear Et. set (g2 := if fltb w bf' then fadd F g1 b1 else g1) in *. clearbody t g2. destruct t as [b'' bf'']. cbn [fst snd] in *. destruct B2 as (J2 & V2 & N2).
    assert (S2 : h = true -> Seen l2 x f) by (intros Q; eapply Seen_ext; [eapply Evald_ext; exact E2|auto]).
    assert (Nw := Evald_nan _ _ _ _ E2).
    assert (Bk2 : kp -> upd x2 i old = x).
    { intros Q. assert (Kk : keeps C (upd x1 i (fadd F old (fmul F (flit F 1 2) si))) x2) by (apply K2; [exact Q|dl]).
      assert (Z : keeps C (upd x i (fadd F old (fmul F (flit F 1 2) si))) x2).
      { intros j a l0 u Ej El Eu Hr. apply (Kk j a l0 u); auto. destruct (Nat.eq_dec i j) as [<-|Hj].
        - rewrite nth_upd_same in * by lia. exact Ej.
        - rewrite nth_upd_other in * by auto. rewrite <- (Bk1 Q) in Ej. rewrite nth_upd_other in Ej by auto. exact Ej. }
      eapply put_back; eauto. }
    destruct (fleb f w) eqn:Q3.
    + apply wp_bind. apply w_setP; [lia|]. apply w_done. cbn [lst_ok]. split; [|split; [apply moved_refl|auto]]. split; [exact (inside_upd C x x2 i old HC I2 Hx Eo)|]. split.
      * intros Q. rewrite Bk2; auto.
      * eapply Jb_back; eauto.
    + assert (Hn : b'' <> None) by (intros Q; apply N2 in Q; congruence).
      apply fleb_false_fltb in Q3; auto. apply w_done. cbn [lst_ok].
      split; [|split; [right; auto|auto]]. split; [auto|]. split; [intros _; eapply Evald_seen; eauto|]. eapply Jb_move; eauto.
  - assert (Q3 : fltb v f = true).
    { destruct (fltb v f) eqn:Z; auto. exfalso. apply fltb_false_fleb in Z; auto. apply fltb_false_fleb in Q2; auto.
      assert (feqb v f = true); [|congruence]. clear -Z Q2. numo. }
    apply w_done. cbn [lst_ok]. assert (Hn : b' <> None).
    { intros Q. apply N1 in Q. apply fleb_fltb_false in Q. congruence. }
    split; [|split; [right; auto|auto]]. split; [auto|]. split; [intros _; eapply Evald_seen; eauto|]. eapply Jb_move; eauto.
Qed.

(** what a local search returns; [imp0]: improve at the start of the loop *)
Definition lsr_ok (h : bool) (f : num) (imp0 : bool) (b : option vec) (r : lsr) (l : elog) : Prop :=
  J h l (l_x r) (l_f r) (l_b r) (l_bf r) /\ moved f imp0 (l_f r) (l_imp r) /\ (b <> None -> l_b r <> None) /\ length (l_sr r) = c_dim C.

Lemma w_lst_loop : forall h x f b bf imp g (step : lst -> nat -> prog lst) l, J h l x f b bf ->
  (forall x' f' b' bf' imp' g' i l', i < c_dim C -> (b <> None -> b' <> None) -> J h l' x' f' b' bf' -> wp K (step (x', f', b', bf', imp', g') i) (lst_ok h f' imp' b') l') ->
  wp K (for_range (length x) step (x, f, b, bf, imp, g)) (lst_ok h f imp b) l.
Proof.
  intros h x f b bf imp g step l HJ Hs. rewrite (J_start _ _ _ _ _ _ HJ).
  apply (wp_for_range _ K (c_dim C) step (fun _ s l' => lst_ok h f imp b s l')).
  - cbn [lst_ok]. split; [auto|]. split; [apply moved_refl|auto].
  - intros i [[[[[x' f'] b'] bf'] imp'] g'] l' Hi (G1 & G2 & G3).
    eapply wp_conseq0; [apply Hs; auto|]. intros [[[[[x2 f2] b2] bf2] imp2] g2] l2 (G4 & G5 & G6). cbn [lst_ok].
    split; [auto|]. split; [eapply moved_trans; eauto|auto].
Qed.
Lemma w_ls1 : forall b1 b2 h x f b bf imp sr l, length sr = c_dim C -> (h = true -> kp) -> (b = None -> kp) -> J h l x f b bf ->
  wp K (mts_ls1 F C b1 b2 x f b bf imp sr) (lsr_ok h f false b) l.
Proof.
  intros b1 b2 h x f b bf imp sr l Ls Hh Hb HJ. unfold mts_ls1. apply wp_bind. eapply wp_conseq0.
  - apply (w_lst_loop h); [exact HJ|]. intros x' f' b' bf' imp' g' i l' Hi Hb' HJ'. apply w_ls1_step; auto; [apply shrink_len; auto|].
    intros ->. destruct b as [b|]; auto. exfalso. apply Hb'; congruence.
  - intros [[[[[x2 f2] b3] bf2] imp2] g2] l2 (G4 & G5 & G6). apply w_done. split; [auto|]. split; [auto|]. split; [auto|]. apply shrink_len; auto.
Qed.

(** ** mts_ls1v1: nothing is known about the solution and its value *)
Lemma w_ls1v1_step : forall b1 b2 sr d x f b bf imp g i l, length sr = c_dim C -> length d = c_dim C -> i < c_dim C -> b <> None -> J false l x f b bf ->
  wp K (ls1v1_step F b1 b2 sr d (x, f, b, bf, imp, g) i) (lst_ok false f imp b) l.
Proof.
  intros b1 b2 sr d x f b bf imp g i l Ls Ld Hi Hb (Hx & HS & HJ). unfold ls1v1_step. assert (Lx := inside_len _ _ HC Hx).
  destruct (Jb_nan _ _ _ _ _ HJ) as [Nf Nb]. destruct b as [b|]; [|congruence].
  apply wp_bind. apply w_nthP; [lia|]. intros old Eo. apply wp_bind. apply w_nthP; [lia|]. intros si Es. apply wp_bind. apply w_nthP; [lia|]. intros di Ed.
  apply wp_bind. apply w_repair_r; [dl|]. intros x1 I1 _. assert (L1 := inside_len _ _ HC I1).
  apply wp_bind. apply w_eval_r; [auto|]. intros v l1 E1.
  assert (B1 := Jb_eval _ _ _ _ _ _ _ _ HJ I1 E1). assert (Nv := Evald_nan _ _ _ _ E1).
  destruct (fltb v bf) eqn:Q0; cbn [fst snd] in B1; destruct B1 as (J1 & V1 & N1).
  { apply w_done. cbn [lst_ok]. split; [|split; [apply moved_refl|discriminate]]. split; [auto|]. split; [discriminate|]. eapply Jb_back; [exact J1|discriminate]. }
  destruct (feqb v f) eqn:Q1.
  { apply wp_bind. apply w_setP; [lia|]. apply w_done. cbn [lst_ok]. split; [|split; [apply moved_refl|discriminate]].
    split; [exact (inside_upd C x x1 i old HC I1 Hx Eo)|]. split; [discriminate|]. eapply Jb_back; [exact J1|discriminate]. }
  destruct (fltb f v) eqn:Q2.
  - apply wp_bind. apply w_setP; [lia|]. apply wp_bind. apply w_repair_r; [dl|]. intros x2 I2 _. assert (L2 := inside_len _ _ HC I2).
    apply wp_bind. apply w_eval_r; [auto|]. intros w l2 E2.
    assert (B2 := Jb_eval _ _ _ _ _ _ _ _ J1 I2 E2). assert (Nw := Evald_nan _ _ _ _ E2).
    destruct (fltb w bf) eqn:Q3; cbn [fst snd] in B2; destruct B2 as (J2 & V2 & N2).
    { apply w_done. cbn [lst_ok]. split; [|split; [apply moved_refl|discriminate]]. split; [auto|]. split; [discriminate|]. eapply Jb_back; [exact J2|discriminate]. }
    destruct (fleb f w) eqn:Q4.
    + apply wp_bind. apply w_setP; [lia|]. apply w_done. cbn [lst_ok]. split; [|split; [apply moved_refl|discriminate]].
      split; [exact (inside_upd C x x2 i old HC I2 Hx Eo)|]. split; [discriminate|]. eapply Jb_back; [exact J2|discriminate].
    + apply fleb_false_fltb in Q4; auto. apply w_done. cbn [lst_ok]. split; [|split; [right; auto|discriminate]]. split; [auto|]. split; [discriminate|]. eapply Jb_move; [eassumption|discriminate|eassumption].
  - assert (Q3 : fltb v f = true).
    { destruct (fltb v f) eqn:Z; auto. exfalso. apply fltb_false_fleb in Z; auto. apply fltb_false_fleb in Q2; auto.
      assert (feqb v f = true); [|congruence]. clear -Z Q2. numo. }
    apply w_done. cbn [lst_ok]. split; [|split; [right; auto|discriminate]]. split; [auto|]. split; [discriminate|]. eapply Jb_move; [eassumption|discriminate|eassumption].
Qed.
Lemma w_ls1v1 : forall b1 b2 x f b bf imp sr l, length sr = c_dim C -> b <> None -> J false l x f b bf ->
  wp K (mts_ls1v1 F C b1 b2 x f b bf imp sr) (lsr_ok false f false b) l.
Proof.
  intros b1 b2 x f b bf imp sr l Ls Hb HJ. unfold mts_ls1v1. apply wp_bind. apply (w_uniform_vec_len K _ _ (c_dim C)); [apply repeat_length|apply repeat_length|].
  intros d [Ld _]. apply wp_bind. eapply wp_conseq0.
  - apply (w_lst_loop false); [exact HJ|]. intros x' f' b' bf' imp' g' i l' Hi Hb' HJ'. apply w_ls1v1_step; auto. apply shrink_len; auto.
  - intros [[[[[x2 f2] b3] bf2] imp2] g2] l2 (G4 & G5 & G6). apply w_done. split; [auto|]. split; [auto|]. split; [auto|]. apply shrink_len; auto.
Qed.

(** ** mts_ls2 *)
Lemma move_x_len : forall op r x d sr, length r = c_dim C -> length x = c_dim C -> length d = c_dim C -> length sr = c_dim C -> length (move_x F op r x d sr) = c_dim C.
Proof. intros. unfold move_x. apply map2_length; rewrite combine_length; lia. Qed.
Lemma w_ls2_step : forall b1 b2 sr h x f b bf imp g i l, length sr = c_dim C -> b <> None -> J h l x f b bf ->
  wp K (ls2_step F b1 b2 sr (x, f, b, bf, imp, g) i) (lst_ok h f imp b) l.
Proof.
  intros b1 b2 sr h x f b bf imp g i l Ls Hb (Hx & HS & HJ). unfold ls2_step. assert (Lx := inside_len _ _ HC Hx).
  destruct (Jb_nan _ _ _ _ _ HJ) as [Nf Nb]. destruct b as [b|]; [|congruence].
  apply wp_bind. apply w_random_vec. intros u Lu. cbv zeta. apply wp_bind. eapply wp_conseq0.
  { apply (wp_repeatM _ K (integers 4) (fun _ l' => l' = l)); [reflexivity|]. intros bs l' _ ->. apply w_integers; [lia|]. auto. }
  intros r l' [-> Lr]. set (d := map _ u). assert (Ld : length d = c_dim C) by (unfold d; rewrite map_length; lia). clearbody d.
  apply wp_bind. apply w_repair_r; [apply move_x_len; lia|]. intros x1 I1 _. apply wp_bind. apply w_eval_r; [auto|]. intros v l1 E1.
  assert (B1 := Jb_eval _ _ _ _ _ _ _ _ HJ I1 E1). assert (Nv := Evald_nan _ _ _ _ E1).
  assert (S1 : h = true -> Seen l1 x f) by (intros Q; eapply Seen_ext; [eapply Evald_ext; exact E1|auto]).
  destruct (fltb v bf) eqn:Q0; cbn [fst snd] in B1; destruct B1 as (J1 & V1 & N1).
  { apply w_done. cbn [lst_ok]. split; [|split; [apply moved_refl|discriminate]]. split; [auto|]. split; auto. }
  destruct (feqb v f) eqn:Q1.
  { apply w_done. cbn [lst_ok]. split; [|split; [apply moved_refl|discriminate]]. split; [auto|]. split; auto. }
  destruct (fltb f v) eqn:Q2.
  - apply wp_bind. apply w_repair_r; [apply move_x_len; lia|]. intros x2 I2 _. apply wp_bind. apply w_eval_r; [auto|]. intros w l2 E2.
    assert (B2 := Jb_eval _ _ _ _ _ _ _ _ J1 I2 E2). assert (Nw := Evald_nan _ _ _ _ E2).
    assert (S2 : h = true -> Seen l2 x f) by (intros Q; eapply Seen_ext; [eapply Evald_ext; exact E2|auto]).
    destruct (fltb w bf) eqn:Q3; cbn [fst snd] in B2; destruct B2 as (J2 & V2 & N2).
    { apply w_done. cbn [lst_ok]. split; [|split; [apply moved_refl|discriminate]]. split; [auto|]. split; auto. }
    destruct (fltb w f) eqn:Q4; apply w_done; cbn [lst_ok].
    + split; [|split; [right; auto|discriminate]]. split; [auto|]. split; [intros _; eapply Evald_seen; eauto|]. eapply Jb_move; [eassumption|discriminate|eassumption].
    + split; [|split; [apply moved_refl|discriminate]]. split; [auto|]. split; auto.
  - assert (Q3 : fltb v f = true).
    { destruct (fltb v f) eqn:Z; auto. exfalso. apply fltb_false_fleb in Z; auto. apply fltb_false_fleb in Q2; auto.
      assert (feqb v f = true); [|congruence]. clear -Z Q2. numo. }
    apply w_done. cbn [lst_ok]. split; [|split; [right; auto|discriminate]]. split; [auto|]. split; [intros _; eapply Evald_seen; eauto|]. eapply Jb_move; [eassumption|discriminate|eassumption].
Qed.
Lemma w_ls2 : forall b1 b2 h x f b bf imp sr l, length sr = c_dim C -> b <> None -> J h l x f b bf ->
  wp K (mts_ls2 F C b1 b2 x f b bf imp sr) (lsr_ok h f false b) l.
Proof.
  intros b1 b2 h x f b bf imp sr l Ls Hb HJ. unfold mts_ls2. apply wp_bind. eapply wp_conseq0.
  - apply (w_lst_loop h); [exact HJ|]. intros x' f' b' bf' imp' g' i l' Hi Hb' HJ'. apply w_ls2_step; auto. apply shrink_len; auto.
  - intros [[[[[x2 f2] b3] bf2] imp2] g2] l2 (G4 & G5 & G6). apply w_done. split; [auto|]. split; [auto|]. split; [auto|]. apply shrink_len; auto.
Qed.

(** ** mts_ls3: the solution may be moved on after its value was taken *)
Lemma ls3_best_spec : forall b1 y v b bf imp g, let t := if fltb v bf then (Some y, v) else (b, bf) in
  exists imp' g', ls3_best F b1 y v (b, bf, imp, g) = (fst t, snd t, imp', g') /\ (imp = true -> imp' = true).
Proof. intros b1 y v b bf imp g. unfold ls3_best. destruct (fltb v bf); cbn [fst snd]; eauto. Qed.
Definition lst3_ok (f : num) (s : lst3) (l : elog) : Prop :=
  let '(xn, c, f', b', bf', _, _) := s in inside C xn /\ inside C (bv xn c) /\ fleb f' f = true /\ b' <> None /\ Jb l xn f' b' bf'.
Lemma w_ls3_step : forall b1 b2 f0' s i l, i < c_dim C -> lst3_ok f0' s l -> wp K (ls3_step F b1 b2 s i) (lst3_ok f0') l.
Proof.
  intros b1 b2 fs [[[[[[xn c] f] b] bf] imp] g] i l Hi (Hx & Hc & Hf & Hb & HJ). unfold ls3_step. assert (Lx := inside_len _ _ HC Hx).
  apply wp_bind. apply w_nthP; [lia|]. intros a Ea.
  apply wp_bind. apply w_repair_r; [dl|]. intros x1 I1 _. apply wp_bind. apply w_repair_r; [dl|]. intros x2 I2 _. apply wp_bind. apply w_repair_r; [dl|]. intros x3 I3 _.
  apply wp_bind. apply w_eval_r; [auto|]. intros v1 l1 E1. apply wp_bind. apply w_eval_r; [auto|]. intros v2 l2 E2. apply wp_bind. apply w_eval_r; [auto|]. intros v3 l3 E3.
  assert (Hany : forall y v l l' b bf, b <> None -> Jb l xn f b bf -> inside C y -> Evald y v l l' ->
     let t := if fltb v bf then (Some y, v) else (b, bf) in fst t <> None /\ Jb l' xn f (fst t) (snd t)).
  { clear -HC. intros y v l l' b bf Hb HJ Hy He. destruct (Jb_eval _ _ _ _ _ _ _ _ HJ Hy He) as (G1 & _ & _). split; [|exact G1]. destruct (fltb v bf); [discriminate|exact Hb]. }
  destruct (ls3_best_spec b1 x1 v1 b bf imp g) as (i1 & g1 & -> & _). destruct (Hany x1 v1 _ _ _ _ Hb HJ I1 E1) as [N1 J1].
  set (t1 := if fltb v1 bf then (Some x1, v1) else (b, bf)) in *. clearbody t1. destruct t1 as [bb1 bf1]. cbn [fst snd] in *.
  destruct (ls3_best_spec b1 x2 v2 bb1 bf1 i1 g1) as (i2 & g2 & -> & _). destruct (Hany x2 v2 _ _ _ _ N1 J1 I2 E2) as [N2 J2].
  set (t2 := if fltb v2 bf1 then (Some x2, v2) else (bb1, bf1)) in *. clearbody t2. destruct t2 as [bb2 bf2]. cbn [fst snd] in *.
  destruct (ls3_best_spec b1 x3 v3 bb2 bf2 i2 g2) as (i3 & g3 & -> & _). destruct (Hany x3 v3 _ _ _ _ N2 J2 I3 E3) as [N3 J3].
  set (t3 := if fltb v3 bf2 then (Some x3, v3) else (bb2, bf2)) in *. clearbody t3. destruct t3 as [bb3 bf3]. cbn [fst snd] in *.
  cbv zeta. destruct (ls3_gain F b2 (ls3_d F f v3) _) as [i4 g4].
  apply wp_bind. apply w_random. intros ra _ _. apply wp_bind. apply w_random. intros rb _ _. apply wp_bind. apply w_random. intros rc _ _.
  apply wp_bind. apply w_repair_r; [dl|]. intros y Iy _. apply wp_bind. apply w_eval_r; [auto|]. intros v l4 E4.
  destruct (Jb_nan _ _ _ _ _ J3) as [Nf Nb]. assert (Nv := Evald_nan _ _ _ _ E4).
  destruct (Jb_eval _ _ _ _ _ _ _ _ J3 Iy E4) as (J4 & V4 & _).
  destruct (fltb v f) eqn:Q1.
  - assert (fleb v fs = true) by (eapply fleb_trans; [apply fltb_fleb; exact Q1|exact Hf]).
    destruct (fltb v bf3) eqn:Q2; cbn [fst snd] in *; apply w_done; cbn [lst3_ok bv].
    + split; [auto|]. split; [auto|]. split; [auto|]. split; [discriminate|]. eapply Jb_move; [exact J4|discriminate|exact V4].
    + split; [auto|]. split; [auto|]. split; [auto|]. split; [auto|]. eapply Jb_move; [exact J4|exact N3|exact V4].
  - assert (Q2 : fltb v bf3 = false).
    { apply fleb_fltb_false. eapply fleb_trans; [apply J3|]. apply fltb_false_fleb; auto. }
    rewrite Q2 in *. cbn [fst snd] in *. apply w_done. cbn [lst3_ok]. split; [auto|]. split; [destruct c; [exact Hc|exact Iy]|]. split; [auto|]. split; [auto|].
    eapply Jb_back; [exact J4|congruence].
Qed.
Lemma w_ls3 : forall b1 b2 x f b bf imp sr l, length sr = c_dim C -> b <> None -> J false l x f b bf ->
  wp K (mts_ls3 F C b1 b2 x f b bf imp sr) (fun r l' => J false l' (l_x r) (l_f r) (l_b r) (l_bf r) /\ fleb (l_f r) f = true /\ l_b r <> None /\ length (l_sr r) = c_dim C) l.
Proof.
  intros b1 b2 x f b bf imp sr l Ls Hb HJ. unfold mts_ls3. apply wp_bind. rewrite (J_start _ _ _ _ _ _ HJ). destruct HJ as (Hx & _ & HJ). destruct (Jb_nan _ _ _ _ _ HJ) as [Nf Nb]. eapply wp_conseq0.
  - apply (wp_for_range _ K (c_dim C) (ls3_step F b1 b2) (fun _ s l' => lst3_ok f s l')).
    + cbn [lst3_ok bv]. split; [auto|]. split; [auto|]. split; [apply fleb_refl; auto|]. split; auto.
    + intros i s l' Hi H. apply w_ls3_step; auto.
  - intros [[[[[[xn c] f2] b3] bf2] imp2] g2] l2 (G1 & G2 & G3 & G4 & G5). apply w_done. cbn [l_x l_f l_b l_bf l_sr].
    split; [|auto]. split; [exact G2|]. split; [discriminate|]. eapply Jb_back; [exact G5|congruence].
Qed.

(** ** mts_ls3v1 *)
Lemma least_spec : forall rows b, Forall (fun r => snd r <> NaN) rows -> (forall r, b = Some r -> snd r <> NaN) ->
  match least b rows with
  | Some r => (In r rows \/ b = Some r) /\ (forall r', In r' rows \/ b = Some r' -> fleb (snd r) (snd r') = true)
  | None => rows = [] /\ b = None
  end.
Proof.
  intros rows. induction rows as [|r rows IH]; intros b Hn Hb; cbn [least].
  - destruct b as [r|]; auto. split; auto. intros r' [[]|Q]. injection Q as <-. apply fleb_refl; auto.
  - inversion Hn as [|? ? Hr Hn']; subst. set (b' := match b with None => Some r | Some b0 => if fltb (snd r) (snd b0) then Some r else Some b0 end).
    assert (Hb' : forall q, b' = Some q -> snd q <> NaN).
    { intros q Hq. unfold b' in Hq. destruct b as [b0|]; [destruct (fltb _ _)|]; injection Hq as <-; auto. }
    specialize (IH b' Hn' Hb'). destruct (least b' rows) as [q|].
    + destruct IH as [I1 I2]. split.
      * destruct I1 as [I1|I1]; [left; right; auto|]. unfold b' in I1. destruct b as [b0|]; [destruct (fltb _ _)|]; injection I1 as <-; auto; left; left; auto.
      * intros r' Hr'. assert (Hle : forall q0, b' = Some q0 -> fleb (snd q0) (snd r) = true /\ (forall b0, b = Some b0 -> fleb (snd q0) (snd b0) = true)).
        { intros q0 Hq. unfold b' in Hq. destruct b as [b0|].
          - destruct (fltb (snd r) (snd b0)) eqn:Z; injection Hq as <-.
            + split; [apply fleb_refl; auto|]. intros ? [= <-]. apply fltb_fleb; auto.
            + apply fltb_false_fleb in Z; auto. split; [auto|]. intros ? [= <-]. apply fleb_refl; auto.
          - injection Hq as <-. split; [apply fleb_refl; auto|discriminate]. }
        assert (Hs : exists q0, b' = Some q0) by (unfold b'; destruct b as [b0|]; [destruct (fltb _ _)|]; eauto). destruct Hs as [q0 Hq0].
        destruct (Hle _ Hq0) as [L1 L2]. assert (Z := I2 q0 (or_intror Hq0)). destruct Hr' as [[<-|Hr']|Hr']; auto; eapply fleb_trans; eauto.
    + destruct IH as [_ I2]. unfold b' in I2. destruct b as [b0|]; [destruct (fltb _ _)|]; discriminate.
Qed.
Lemma In_below : forall t rows r, In r (below t rows) <-> In r rows /\ fltb (snd r) t = true.
Proof. intros. unfold below. apply filter_In. Qed.
Lemma Evals_cov : forall xs vs l l' bf, LB l bf -> Evals xs vs l l' -> Cov l' vs bf.
Proof. intros xs vs l l' bf H He. assert (Z : Cov l' (vs ++ []) bf) by (eapply Cov_Evals; eauto; apply LB_Cov; auto). rewrite app_nil_r in Z. exact Z. Qed.
Lemma combine_In2 : forall A B (xs : list A) (ys : list B) y, length xs = length ys -> In y ys -> exists x, In (x, y) (combine xs ys).
Proof. intros A B xs. induction xs as [|x xs IH]; intros [|y0 ys] y L H; simpl in *; try discriminate; [contradiction|]. destruct H as [<-|H]; [eauto|]. destruct (IH ys y) as [x' Hx']; eauto. Qed.
Lemma combine_rel : forall A B (R : A -> B -> Prop) xs ys p, Forall2 R xs ys -> In p (combine xs ys) -> R (fst p) (snd p).
Proof. intros A B R xs ys p H. induction H; simpl; [contradiction|]. intros [<-|Hp]; auto. Qed.
Lemma combine_In1 : forall A B (xs : list A) (ys : list B) p, In p (combine xs ys) -> In (fst p) xs /\ In (snd p) ys.
Proof. intros A B xs ys [a b] H. split; [eapply in_combine_l; eauto|eapply in_combine_r; eauto]. Qed.

Lemma w_ls3v1_row : forall x disp (Q : vec -> elog -> Prop) l, length x = c_dim C -> length disp = c_dim C ->
  (forall y, length y = c_dim C -> Q y l) -> wp K (ls3v1_row F x disp) Q l.
Proof.
  intros x disp Q l Lx Ld HQ. unfold ls3v1_row. apply wp_bind. apply w_permutation. intros pi Lp _ _. apply wp_bind.
  apply (w_uniform_vec_len K _ _ (length x)); [apply repeat_length|apply repeat_length|]. intros u [Lu _]. apply w_done. apply HQ.
  apply map2_length; [rewrite map_length; lia|apply map2_length; lia].
Qed.
Lemma w_ls3v1_pass : forall b1 b2 h x f b bf imp g disp l, length disp = c_dim C -> b <> None -> J h l x f b bf ->
  wp K (ls3v1_pass F b1 b2 (x, f, b, bf, imp, g) disp) (lst_ok h f imp b) l.
Proof.
  intros b1 b2 h x f b bf imp g disp l Ld Hb (Hx & HS & HJ). unfold ls3v1_pass. assert (Lx := inside_len _ _ HC Hx).
  destruct (Jb_nan _ _ _ _ _ HJ) as [Nf Nb]. destruct b as [b|]; [|congruence]. destruct HJ as (Ib & (G1 & G2 & G3) & Hle & _). cbn [bv] in *.
  apply wp_bind. eapply wp_conseq0.
  { apply (wp_repeatM _ K (ls3v1_row F x disp) (fun ys l' => l' = l /\ Forall (fun y => length y = c_dim C) ys)); [auto|].
    intros bs l' _ [-> Hbs]. apply w_ls3v1_row; auto. intros y Ly. split; [auto|]. apply Forall_app; auto. }
  intros ys l' [[-> Hys] Lys]. assert (Hne : ys <> []) by (destruct ys; [discriminate|congruence]).
  apply wp_bind. apply w_repair_all_r; auto. intros zs Lz Iz. apply wp_bind. apply w_eval_all_r; auto; [destruct zs; destruct ys; simpl in *; congruence|].
  intros vs l' He. cbv zeta. apply w_done.
  assert (HSv := Evals_seen _ _ _ _ He). assert (Nvs := Evals_nan _ _ _ _ He). assert (Lv := Evals_len _ _ _ _ He). assert (Hx' := Evals_ext _ _ _ _ He).
  assert (Hcv := Evals_cov _ _ _ _ _ G2 He). set (rows := combine zs vs).
  assert (Nrows : Forall (fun r : vec * num => snd r <> NaN) rows).
  { apply Forall_forall. intros r Hr. apply combine_In1 in Hr. rewrite Forall_forall in Nvs. apply Nvs. apply Hr. }
  assert (Hrow : forall r, In r rows -> inside C (fst r) /\ Seen l' (fst r) (snd r) /\ snd r <> NaN).
  { intros r Hr. split; [|split].
    - apply combine_In1 in Hr. rewrite Forall_forall in Iz. apply Iz, Hr.
    - exact (combine_rel _ _ _ _ _ _ HSv Hr).
    - rewrite Forall_forall in Nrows. auto. }
  assert (Hval : forall v, In v vs -> exists z, In (z, v) rows) by (intros v Hv; apply combine_In2; auto).
  assert (Nbel : forall t, Forall (fun r : vec * num => snd r <> NaN) (below t rows)).
  { intros t. apply Forall_forall. intros r Hr. apply In_below in Hr. apply Hrow. apply Hr. }
  set (g' := fadd F g _). clearbody g'.
  assert (M1 := least_spec (below bf rows) None (Nbel bf) ltac:(discriminate)).
  destruct (least None (below bf rows)) as [[y v]|].
  - destruct M1 as [[M1|M1] M2]; [|discriminate]. apply In_below in M1. destruct M1 as [M1 M3]. destruct (Hrow _ M1) as (R1 & R2 & R3). cbn [fst snd] in *.
    assert (Hm : LB l' v).
    { intros z u Hu. destruct (Hcv z u Hu) as [Z|(w & W1 & W2)].
      - eapply fleb_trans; [apply fltb_fleb; exact M3|exact Z].
      - destruct (Hval w W1) as [zw Hzw]. destruct (fltb w bf) eqn:Qw.
        + eapply fleb_trans; [|exact W2]. apply (M2 (zw, w)). left. apply In_below. auto.
        + apply fltb_false_fleb in Qw; [|eapply fleb_nan_l; eauto|auto]. eapply fleb_trans; [apply fltb_fleb; exact M3|]. eapply fleb_trans; eauto. }
    cbn [lst_ok]. split; [|split; [right; split; [eapply fltb_fleb_trans; eauto|auto]|discriminate]].
    split; [auto|]. split; [auto|]. split; [auto|]. split; [|split; [apply fleb_refl; auto|discriminate]]. split; [auto|]. split; auto.
  - destruct M1 as [M1 _]. assert (Hm : LB l' bf).
    { intros z u Hu. destruct (Hcv z u Hu) as [Z|(w & W1 & W2)]; auto. destruct (Hval w W1) as [zw Hzw]. destruct (fltb w bf) eqn:Qw.
      - assert (Z : In (zw, w) (below bf rows)) by (apply In_below; auto). rewrite M1 in Z. destruct Z.
      - apply fltb_false_fleb in Qw; [|eapply fleb_nan_l; eauto|auto]. eapply fleb_trans; eauto. }
    assert (Gb : Good l' b bf) by (split; [eapply Seen_ext; eauto|split; auto]).
    assert (M2 := least_spec (below f rows) None (Nbel f) ltac:(discriminate)).
    destruct (least None (below f rows)) as [[y v]|].
    + destruct M2 as [[M2|M2] M3]; [|discriminate]. apply In_below in M2. destruct M2 as [M2 M4]. destruct (Hrow _ M2) as (R1 & R2 & R3). cbn [fst snd] in *.
      assert (Hbv : fleb bf v = true).
      { apply fltb_false_fleb; auto. destruct (fltb v bf) eqn:Q; auto. assert (Z : In (y, v) (below bf rows)) by (apply In_below; auto). rewrite M1 in Z. destruct Z. }
      cbn [lst_ok]. split; [|split; [right; auto|discriminate]]. split; [auto|]. split; [auto|]. split; [auto|]. split; [auto|]. split; [auto|discriminate].
    + cbn [lst_ok]. split; [|split; [apply moved_refl|discriminate]]. split; [auto|]. split; [intros Q; eapply Seen_ext; eauto|]. split; [auto|]. split; [auto|]. split; [auto|discriminate].
Qed.
Lemma ls3v1_disp_len : forall x disp, length x = c_dim C -> length disp = c_dim C -> length (ls3v1_disp F C x disp) = c_dim C.
Proof.
  intros x disp Lx Ld. unfold ls3v1_disp. rewrite map_length. destruct HC as (L1 & L2 & _).
  assert (Lt : length (map (fun d => fmul F (flit F 2 1) d) disp) = c_dim C) by (rewrite map_length; auto).
  apply map2_length; apply map2_length; auto; apply map2_length; auto.
Qed.
Lemma w_ls3v1_loop : forall b1 b2 fuel h x f b bf imp g disp l, length disp = c_dim C -> b <> None -> J h l x f b bf ->
  wp K (ls3v1_loop F C b1 b2 fuel (x, f, b, bf, imp, g) disp) (lst_ok h f imp b) l.
Proof.
  intros b1 b2 fuel. induction fuel as [|n IH]; intros h x f b bf imp g disp l Ld Hb HJ; cbn [ls3v1_loop]; destruct (existsb _ disp).
  - left. reflexivity.
  - apply w_done. cbn [lst_ok]. split; [auto|]. split; [apply moved_refl|auto].
  - apply wp_bind. eapply wp_conseq0; [apply w_ls3v1_pass; eauto|]. intros [[[[[x2 f2] b3] bf2] imp2] g2] l2 (G1 & G2 & G3). cbn [fst].
    eapply wp_conseq0; [apply (IH h); [apply ls3v1_disp_len; auto; eapply J_start; eauto|auto|exact G1]|].
    intros [[[[[x4 f4] b4] bf4] imp4] g4] l4 (G4 & G5 & G6). cbn [lst_ok]. split; [auto|]. split; [eapply moved_trans; eauto|auto].
  - apply w_done. cbn [lst_ok]. split; [auto|]. split; [apply moved_refl|auto].
Qed.
Lemma w_ls3v1 : forall fuel b1 b2 h x f b bf imp sr l, length sr = c_dim C -> b <> None -> J h l x f b bf ->
  wp K (mts_ls3v1 F C fuel b1 b2 x f b bf imp sr) (lsr_ok h f imp b) l.
Proof.
  intros fuel b1 b2 h x f b bf imp sr l Ls Hb HJ. unfold mts_ls3v1. apply wp_bind. eapply wp_conseq0.
  - apply w_ls3v1_loop; [|exact Hb|exact HJ]. rewrite map_length. unfold trange. dl.
  - intros [[[[[x2 f2] b3] bf2] imp2] g2] l2 (G4 & G5 & G6). apply w_done. split; [auto|]. split; [auto|]. split; auto.
Qed.

(** ** Any search *)
Definition trj_ok (h : bool) (t : trj) (l : elog) : Prop :=
  inside C (t_x t) /\ (h = true -> Seen l (t_x t) (t_f t)) /\ inside C (t_b t) /\ Good l (t_b t) (t_bf t) /\ fleb (t_bf t) (t_f t) = true /\ length (t_sr t) = c_dim C.
Lemma J_weaken : forall h l x f b bf, J h l x f b bf -> J false l x f b bf.
Proof. intros h l x f b bf (H1 & H2 & H3). split; [auto|]. split; [discriminate|auto]. Qed.
Lemma w_run_ls : forall fuel k b1 b2 h x f b bf imp sr l, (h = true -> kp) -> length sr = c_dim C -> b <> None -> J h l x f b bf ->
  wp K (run_ls F C fuel k b1 b2 x f b bf imp sr) (fun r l' => J (h && honest k) l' (l_x r) (l_f r) (l_b r) (l_bf r) /\ fleb (l_f r) f = true /\ l_b r <> None /\ length (l_sr r) = c_dim C /\
    match k with LS1 | LS1v1 | LS2 => moved f false (l_f r) (l_imp r) | LS3 => True | LS3v1 => moved f imp (l_f r) (l_imp r) end) l.
Proof.
  intros fuel k b1 b2 h x f b bf imp sr l Hh Ls Hb HJ. assert (Nf : f <> NaN) by (destruct HJ as (_ & _ & HJ); apply (Jb_nan _ _ _ _ _ HJ)).
  destruct k; cbn [run_ls honest]; rewrite ?andb_true_r, ?andb_false_r.
  - eapply wp_conseq0; [apply (w_ls1 b1 b2 h); auto; congruence|]. intros r l' (G1 & G2 & G3 & G4). split; [auto|]. split; [eapply moved_le; eauto|auto].
  - eapply wp_conseq0; [apply w_ls1v1; auto; eapply J_weaken; eauto|]. intros r l' (G1 & G2 & G3 & G4). split; [auto|]. split; [eapply moved_le; eauto|auto].
  - eapply wp_conseq0; [apply (w_ls2 b1 b2 h); auto|]. intros r l' (G1 & G2 & G3 & G4). split; [auto|]. split; [eapply moved_le; eauto|auto].
  - eapply wp_conseq0; [apply w_ls3; auto; eapply J_weaken; eauto|]. intros r l' (G1 & G2 & G3 & G4). auto.
  - eapply wp_conseq0; [apply (w_ls3v1 fuel b1 b2 h); auto|]. intros r l' (G1 & G2 & G3 & G4). split; [auto|]. split; [eapply moved_le; eauto|auto].
Qed.
Lemma w_one_ls : forall fuel k b1 b2 h t l, (h = true -> kp /\ honest k = true) -> trj_ok h t l ->
  wp K (one_ls F C fuel k b1 b2 t) (fun r l' => trj_ok h (fst r) l' /\ fleb (t_f (fst r)) (t_f t) = true) l.
Proof.
  intros fuel k b1 b2 h t l Hh (T1 & T2 & T3 & T4 & T5 & T6). unfold one_ls. apply wp_bind.
  eapply wp_conseq0; [apply (w_run_ls fuel k b1 b2 h)|].
  - intros Q. apply Hh, Q.
  - exact T6.
  - discriminate.
  - split; [auto|]. split; [auto|]. split; [auto|]. split; [auto|]. split; [auto|discriminate].
  - intros [x f [b|] bf imp g sr] l' (G1 & G2 & G3 & G4 & _); [|exfalso; apply G3; reflexivity]. cbn [l_x l_f l_b l_bf l_sr] in *.
    apply w_done. cbn [l_best l_b fst t_x t_f t_b t_bf t_sr]. destruct G1 as (J1 & J2 & (J3 & J4 & J5 & _)). split; [|auto].
    split; [auto|]. split; [|split; [auto|split; [auto|split; auto]]]. intros Q. apply J2. rewrite Q. simpl. apply Hh, Q.
Qed.

Lemma Good_le : forall l l' y f y' f', Good l y f -> ext l l' -> Good l' y' f' -> fleb f' f = true.
Proof. intros l l' y f y' f' (S1 & _ & _) He (_ & L2 & N2). destruct S1 as [->|S1]; [apply fleb_PInf; auto|]. eapply L2. eapply ext_In; eauto. Qed.

(** ** grading_run, run_local_search and the members *)
Variable p : mts_par.
Hypothesis Hls : mt_ls p <> [].
Hypothesis H3 : length (mt_ls p) <= 3 \/ mt_tests p = 0.
Variable h : bool.
Hypothesis Hh : h = true -> kp /\ forallb honest (mt_ls p) = true.
Lemma h_In : forall k, In k (mt_ls p) -> h = true -> kp /\ honest k = true.
Proof. intros k Hk Q. destruct (Hh Q) as [G1 G2]. split; auto. rewrite forallb_forall in G2. auto. Qed.

Lemma w_grading : forall t l, trj_ok h t l -> wp K (grading_run F C p t) (fun t' l' => trj_ok h t' l' /\ fleb (t_f t') (t_f t) = true) l.
Proof.
  intros t l HT. unfold grading_run. destruct (mt_ls p) as [|k0 ks] eqn:El; [congruence|]. rewrite <- El in *. clear k0 ks El.
  assert (Nf : t_f t <> NaN) by (destruct HT as (_ & _ & _ & _ & T & _); eapply fleb_nan_r; eauto).
  apply (wp_foldM _ _ K _ (fun _ t' l' => trj_ok h t' l' /\ fleb (t_f t') (t_f t) = true)); [split; [auto|apply fleb_refl; auto]|].
  intros [i k] r t1 l1 [pre Hpre] HT1.
  assert (Hik : In (i, k) (combine (seq 0 (length (mt_ls p))) (mt_ls p))) by (rewrite Hpre; apply in_or_app; right; left; auto).
  assert (Hk := in_combine_r _ _ _ _ Hik). assert (Hi := in_combine_l _ _ _ _ Hik). apply in_seq in Hi. cbn [fst snd].
  apply (wp_for_range _ K (mt_tests p) _ (fun _ t' l' => trj_ok h t' l' /\ fleb (t_f t') (t_f t) = true)); [exact HT1|].
  intros j t2 l2 Hj [HT2 Hf2]. apply wp_bind. eapply wp_conseq0; [apply (w_one_ls _ k _ _ h); [apply h_In; auto|exact HT2]|].
  intros r2 l3 [G1 G2]. destruct (i <? 3) eqn:Q; [|apply Nat.ltb_ge in Q; destruct H3; lia]. apply w_done. split; auto. eapply fleb_trans; eauto.
Qed.
Lemma w_run_local : forall k t g l, In k (mt_ls p) -> trj_ok h t l -> wp K (run_local_search F C p k t g) (fun s l' => trj_ok h (fst s) l' /\ fleb (t_f (fst s)) (t_f t) = true) l.
Proof.
  intros k t g l Hk HT. unfold run_local_search. assert (Nf : t_f t <> NaN) by (destruct HT as (_ & _ & _ & _ & T & _); eapply fleb_nan_r; eauto).
  apply (wp_for_range _ K (mt_searches p) _ (fun _ s l' => trj_ok h (fst s) l' /\ fleb (t_f (fst s)) (t_f t) = true)); [split; [auto|apply fleb_refl; auto]|].
  intros j [t2 g2] l2 Hj [HT2 Hf2]. cbn [fst snd] in *. apply wp_bind. eapply wp_conseq0; [apply (w_one_ls _ k _ _ h); [apply h_In; auto|exact HT2]|].
  intros r2 l3 [G1 G2]. apply w_done. cbn [fst]. split; auto. eapply fleb_trans; eauto.
Qed.
Lemma last_In : forall ks, ks <> [] -> In (last ks LS1) ks.
Proof. intros ks. induction ks as [|k ks IH]; intros H; [congruence|]. destruct ks as [|k' ks]; [left; auto|right; apply IH; discriminate]. Qed.
Definition ent_ok (l : elog) (fxb : num) (r : vec * num * mext) : Prop :=
  inside C (fst (fst r)) /\ (h = true -> Seen l (fst (fst r)) (snd (fst r))) /\ fleb fxb (snd (fst r)) = true /\ length (m_sr (snd r)) = c_dim C.
Lemma ent_ext : forall l l' f f' r, ext l l' -> fleb f' f = true -> ent_ok l f r -> ent_ok l' f' r.
Proof. intros l l' f f' r He Hf (G1 & G2 & G3 & G4). split; [auto|]. split; [intros Q; eapply Seen_ext; eauto|]. split; [eapply fleb_trans; eauto|auto]. Qed.
Lemma w_member : forall x f e xb fxb l, ent_ok l fxb (x, f, e) -> inside C xb -> Good l xb fxb ->
  wp K (mts_member F C p x f e xb fxb) (fun s l' => trj_ok h (fst s) l' /\ fleb (t_f (fst s)) f = true) l.
Proof.
  intros x f e xb fxb l (E1 & E2 & E3 & E4) Hb Hg. unfold mts_member. apply wp_bind. eapply wp_conseq0.
  - apply w_grading. split; [exact E1|]. split; [exact E2|]. split; [auto|]. split; [auto|]. split; auto.
  - intros t l' [(T1 & T2 & T3 & T4 & T5 & T6) Hf]. cbn [t_f] in Hf. eapply wp_conseq0; [apply w_run_local; [apply last_In; auto|]|].
    + split; [exact T1|]. split; [exact T2|]. split; [auto|]. split; [auto|]. split; auto.
    + intros s l2 [G1 G2]. split; auto. cbn [t_f] in G2. eapply fleb_trans; eauto.
Qed.
(** a member before and after its turn *)
Definition turn (r r' : vec * num * mext) : Prop :=
  (if m_en (snd r) then m_en (snd r') = false else r' = r) /\ fleb (snd (fst r')) (snd (fst r)) = true.
Lemma w_members : forall rows xb fxb l, Forall (ent_ok l fxb) rows -> inside C xb -> Good l xb fxb ->
  wp K (mts_members F C p rows xb fxb) (fun q l' => Forall (ent_ok l' (snd q)) (fst (fst q)) /\ Forall2 turn rows (fst (fst q)) /\
    inside C (snd (fst q)) /\ Good l' (snd (fst q)) (snd q) /\ fleb (snd q) fxb = true) l.
Proof.
  induction rows as [|[[x f] e] rows IH]; intros xb fxb l HE Hb Hg; cbn [mts_members].
  - apply w_done. cbn [fst snd]. split; [auto|]. split; [auto|]. split; [auto|]. split; [auto|]. apply fleb_refl. apply Hg.
  - inversion HE as [|? ? HE1 HE2]; subst. destruct (m_en e) eqn:En.
    + apply wp_bind. eapply wp_conseq; [apply w_member; eauto|]. intros [t g] l1 Hx1 [(T1 & T2 & T3 & T4 & T5 & T6) Hf]. cbn [fst snd] in *.
      assert (Hle := Good_le _ _ _ _ _ _ Hg Hx1 T4). apply wp_bind. eapply wp_conseq.
      { apply IH; [|exact T3|exact T4]. eapply Forall_impl; [|exact HE2]. intros r Hr. eapply ent_ext; eauto. }
      intros q l2 Hx2 (Q1 & Q2 & Q3 & Q4 & Q5). apply w_done. cbn [fst snd]. split; [|split; [|split; [auto|split; [auto|]]]].
      * constructor; auto. split; [exact T1|]. split; [intros Q; eapply Seen_ext; eauto|]. split; [cbn [fst snd]; eapply fleb_trans; eauto|exact T6].
      * constructor; auto. split; [|exact Hf]. cbn [fst snd]. rewrite En. reflexivity.
      * eapply fleb_trans; eauto.
    + apply wp_bind. eapply wp_conseq; [apply IH; eauto|]. intros q l2 Hx2 (Q1 & Q2 & Q3 & Q4 & Q5). apply w_done. cbn [fst snd].
      split; [|split; [|split; [auto|split; auto]]].
      * constructor; auto. eapply ent_ext; eauto.
      * constructor; auto. split; [cbn [fst snd]; rewrite En; reflexivity|]. cbn [fst snd]. apply fleb_refl. destruct HE1 as (_ & _ & Z & _). eapply fleb_nan_r; exact Z.
Qed.
Lemma w_polish : forall xb fxb l, (mt_best p = 0 \/ kp) -> inside C xb -> Good l xb fxb ->
  wp K (mts_polish F C p xb fxb) (fun b l' => inside C (fst b) /\ Good l' (fst b) (snd b) /\ fleb (snd b) fxb = true) l.
Proof.
  intros xb fxb l Hk Hb Hg. unfold mts_polish. assert (Nf : fxb <> NaN) by apply Hg.
  apply (wp_for_range _ K (mt_best p) _ (fun _ b l' => inside C (fst b) /\ Good l' (fst b) (snd b) /\ fleb (snd b) fxb = true)).
  - cbn [fst snd]. split; [auto|]. split; [auto|]. apply fleb_refl; auto.
  - intros j [y g] l' Hj (G1 & G2 & G3). cbn [fst snd] in *. destruct Hk as [Hk|Hk]; [lia|]. apply wp_bind. eapply wp_conseq.
    + apply (w_ls1 _ _ false); [rewrite map_length; unfold trange; dl|discriminate|auto|].
      split; [exact G1|]. split; [discriminate|]. split; [exact G1|]. split; [exact G2|]. split; [apply fleb_refl; apply G2|auto].
    + intros r l2 Hx ((J1 & _ & (J2 & J3 & J4 & _)) & _). apply w_done. cbn [fst snd].
      assert (Eb : l_best r = bv (l_x r) (l_b r)) by reflexivity. rewrite Eb. split; [auto|]. split; [auto|].
      eapply fleb_trans; [exact (Good_le _ _ _ _ _ _ G2 Hx J3)|exact G3].
Qed.

(** ** Iterations *)
Definition Inv (pop : list vec) (fit : list num) (xb : vec) (fxb : num) (par : list mext) (l : elog) : Prop :=
  length pop = mt_n p /\ length fit = mt_n p /\ length par = mt_n p /\ Forall (ent_ok l fxb) (combine (combine pop fit) par) /\ inside C xb /\ Good l xb fxb.
Lemma split_rows : forall (rows : list (vec * num * mext)), combine (combine (map (fun r => fst (fst r)) rows) (map (fun r => snd (fst r)) rows)) (map snd rows) = rows.
Proof. induction rows as [|[[x f] e] rows IH]; simpl; congruence. Qed.
Lemma enable_length : forall k es, length (enable_lowest k es) = length es.
Proof. clear. intros. unfold enable_lowest. rewrite map_length, combine_length, seq_length. lia. Qed.
(** only the flag changes *)
Definition flagged (e e' : mext) : Prop := m_im e' = m_im e /\ m_sr e' = m_sr e /\ m_gr e' = m_gr e.
Lemma enable_flagged : forall k es, Forall2 flagged es (enable_lowest k es).
Proof.
  intros k es. unfold enable_lowest. generalize (firstn k (argsort (map m_gr es))) as idx. generalize 0 as s. induction es as [|e es IH]; intros s idx; simpl; constructor; auto.
  destruct (existsb _ _); unfold flagged; auto.
Qed.
Lemma ent_flagged : forall l fxb pf es es', Forall2 flagged es es' -> Forall (ent_ok l fxb) (combine pf es) -> Forall (ent_ok l fxb) (combine pf es').
Proof.
  intros l fxb pf es es' H. revert pf. induction H as [|e e' es es' (F1 & F2 & F3) H IH]; intros [|q pf] HE; simpl in *; auto. inversion HE as [|? ? HE1 HE2]; subst. constructor; auto.
  destruct HE1 as (G1 & G2 & G3 & G4). split; [exact G1|]. split; [exact G2|]. split; [exact G3|]. cbn [snd] in *. congruence.
Qed.

Lemma mts_init_ok : 0 < mt_n p -> init_c K (mts F C p) Inv.
Proof.
  intros Hn. unfold init_c. cbn [mts a_init a_coords]. unfold mts_init. apply wp_bind. apply wp_KPX. apply w_default_numpy_init; auto.
  intros pop fit l' Lp Ip He. cbn [fst snd]. apply w_done. assert (Hne : pop <> []) by (destruct pop; simpl in *; [lia|congruence]).
  apply w_get_best0; auto. intros x f Hg Hx. cbn [fst snd]. assert (Lf := Evals_len _ _ _ _ He). assert (HS := Evals_seen _ _ _ _ He).
  split; [auto|]. split; [congruence|]. split; [apply repeat_length|]. split; [|split; [rewrite Forall_forall in Ip; auto|auto]].
  apply Forall_forall. intros [[y g] e] Hr. assert (R1 := in_combine_r _ _ _ _ Hr). assert (R2 := in_combine_l _ _ _ _ Hr). apply repeat_spec in R1. subst e.
  assert (Sy : Seen l' y g) by exact (combine_rel _ _ _ _ _ _ HS R2).
  split; [|split; [|split]]; cbn [fst snd m_sr].
  - rewrite Forall_forall in Ip. apply Ip. eapply in_combine_l; eauto.
  - auto.
  - destruct Hg as (_ & L & N). destruct Sy as [->|Sy]; [apply fleb_PInf; auto|eapply L; eauto].
  - rewrite map_length. unfold trange. dl.
Qed.
(** what an iteration does to the arrays *)
Definition mts_rel (pop : list vec) (fit : list num) (xb : vec) (fxb : num) (par : list mext) (pop' : list vec) (fit' : list num) (xb' : vec) (fxb' : num) (par' : list mext) : Prop :=
  exists par1, Forall2 turn (combine (combine pop fit) par) (combine (combine pop' fit') par1) /\ length par1 = length par /\ par' = enable_lowest (mt_enabled p) par1 /\ fleb fxb' fxb = true.
Lemma mts_iter_r : (mt_best p = 0 \/ kp) -> forall pop fit xb fxb par l, Inv pop fit xb fxb par l ->
  wp K (mts_iter F C p pop fit xb fxb par) (fun a l' => let '(pop', fit', xb', fxb', par') := a in Inv pop' fit' xb' fxb' par' l' /\ mts_rel pop fit xb fxb par pop' fit' xb' fxb' par') l.
Proof.
  intros Hk pop fit xb fxb par l (L1 & L2 & L3 & HE & Hb & Hg). unfold mts_iter. apply wp_bind. eapply wp_conseq; [apply w_members; eauto|].
  intros [[rows xb1] fxb1] l1 Hx1 (Q1 & Q2 & Q3 & Q4 & Q5). cbn [fst snd] in *. apply wp_bind. eapply wp_conseq; [apply w_polish; eauto|].
  intros [xb2 fxb2] l2 Hx2 (B1 & B2 & B3). cbn [fst snd] in *. apply w_done.
  assert (Lr := Forall2_len _ _ _ _ _ Q2). rewrite !combine_length in Lr. split.
  - split; [rewrite map_length; lia|]. split; [rewrite map_length; lia|]. split; [rewrite enable_length, map_length; lia|]. split; [|split; auto].
    eapply ent_flagged; [apply enable_flagged|]. rewrite split_rows. eapply Forall_impl; [|exact Q1]. intros r Hr. eapply ent_ext; eauto.
  - exists (map snd rows). rewrite split_rows. split; [auto|]. split; [rewrite map_length; lia|]. split; [auto|]. eapply fleb_trans; eauto.
Qed.
Lemma mts_iter_ok : (mt_best p = 0 \/ kp) -> iter_c K (mts F C p) Inv.
Proof.
  intros Hk pop fit xb fxb par l HI. cbn [mts a_iter]. eapply wp_conseq0; [apply mts_iter_r; auto|].
  intros [[[[pop' fit'] xb'] fxb'] par'] l' [G _]. exact G.
Qed.
End Mts.
