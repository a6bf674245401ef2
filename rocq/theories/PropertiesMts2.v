(** The local searches of mts.py and an iteration of MultipleTrajectorySearch, evaluation by evaluation (C127), and the halving of the
    population of DynNpDifferentialEvolutionMTS (C128). *)
From Coq Require Import ZArith Lia Bool List Permutation.
From Verif Require Import Num Task TaskSpec TaskProofs Prog Wp GetBest Run RunSpec RunProofs RunProofs2
  AlgoLib Fops AlgTac StepSpec StepLib Indiv AlgDE AlgPSO Reach AlgBasic AlgBasic2 AlgBasic2Proofs Repair B64 ExLib ExLib2
  PropertiesBasic2 PropertiesDE2 AlgShadeProofs AlgEvoProofs AlgMts AlgMtsProofs AlgHde PropertiesMts PropertiesHde.
Import ListNotations.

(** steps one after the other *)
Inductive chain {A S : Type} (R : A -> S -> elog -> S -> elog -> Prop) : list A -> S -> elog -> S -> elog -> Prop :=
| chain_nil : forall s l, chain R [] s l s l
| chain_cons : forall a xs s l s1 l1 s2 l2, R a s l s1 l1 -> chain R xs s1 l1 s2 l2 -> chain R (a :: xs) s l s2 l2.
Lemma w_chain : forall A S K (f : S -> A -> prog S) (R : A -> S -> elog -> S -> elog -> Prop) xs s l (Q : S -> elog -> Prop),
  (forall a s l, wp K (f s a) (fun s' l' => R a s l s' l') l) -> (forall s' l', chain R xs s l s' l' -> Q s' l') -> wp K (foldM f xs s) Q l.
Proof.
  intros A S K f R xs. induction xs as [|a xs IH]; intros s l Q Hf HQ; cbn [foldM]; [apply w_done; apply HQ; constructor|].
  apply wp_bind. eapply wp_conseq0; [apply Hf|]. intros s1 l1 H. apply IH; auto. intros s' l' H2. apply HQ. econstructor; eauto.
Qed.

Section Searches.
Variable F : fops.
Variable E : env.
Variables b1 b2 : num.
Let C := e_cfg E.
Local Notation rep := (repaired E).

(** the search range: halved if the last search did not improve the solution, and set to 0.4 of the range where it is below 1e-15 *)
Definition shrunk (imp : bool) (sr sr' : vec) : Prop :=
  if imp then sr' = sr else
  length sr' = min (length sr) (min (length (c_upper C)) (length (c_lower C))) /\
  forall i s u o s', nth_error sr i = Some s -> nth_error (c_upper C) i = Some u -> nth_error (c_lower C) i = Some o -> nth_error sr' i = Some s' ->
    let h := fdiv F s (flit F 2 1) in s' = if fltb h (flit F 1 1000000000000000) then fmul F (fsub F u o) (flit F 2 5) else h.
Lemma map2_nth : forall (f : num -> num -> num) xs ys i a b c, nth_error xs i = Some a -> nth_error ys i = Some b -> nth_error (map2 f xs ys) i = Some c -> c = f a b.
Proof. intros f. induction xs as [|x xs IH]; intros [|y ys] [|i] a b c H1 H2 H3; try discriminate; cbn in *; [congruence|eauto]. Qed.
Lemma map2_len : forall (f : num -> num -> num) xs ys, length (map2 f xs ys) = min (length xs) (length ys).
Proof. intros f. induction xs as [|x xs IH]; intros [|y ys]; cbn; auto. Qed.
Lemma shrunk_is : forall imp sr, shrunk imp sr (shrink F C imp sr).
Proof.
  intros [|] sr; unfold shrunk, shrink; [reflexivity|]. split; [rewrite map2_len; unfold trange, vsub; rewrite map2_len; reflexivity|].
  intros i s u o s' H1 H2 H3 H4. assert (exists r, nth_error (trange F C) i = Some r /\ r = fsub F u o) as (r & R1 & ->).
  { unfold trange, vsub. destruct (nth_error (map2 (fsub F) (c_upper C) (c_lower C)) i) as [r|] eqn:R; [exists r; split; auto; eapply map2_nth; eauto|].
    apply nth_error_None in R. rewrite map2_len in R. assert (i < length (c_upper C)) by (apply nth_error_Some; congruence). assert (i < length (c_lower C)) by (apply nth_error_Some; congruence). lia. }
  rewrite (map2_nth _ _ _ _ _ _ _ H1 R1 H4). reflexivity.
Qed.

(** the best solution and the grade after an evaluation of y *)
Definition best_upd (y : vec) (v : num) (b : option vec) (bf g : num) (b' : option vec) (bf' g' : num) : Prop :=
  if fltb v bf then b' = Some y /\ bf' = v /\ g' = fadd F g b1 else b' = b /\ bf' = bf /\ g' = g.

(** mts_ls1 in component i: a step down by the search range; back again if the value is the same; else, if it is worse, half a step up,
    and back again if that is no better *)
Definition ls1_moves (sr : vec) (i : nat) (s : lst) (l : elog) (s' : lst) (l' : elog) : Prop :=
  let '(x, f, b, bf, imp, g) := s in let '(x', f', b', bf', imp', g') := s' in
  exists old si y v l1 b1' bf1 g1, nth_error x i = Some old /\ nth_error sr i = Some si /\ rep (upd x i (fsub F old si)) y /\ evaluated y v l l1 /\ best_upd y v b bf g b1' bf1 g1 /\
  if feqb v f then x' = upd y i old /\ f' = f /\ imp' = imp /\ (b', bf', g', l') = (b1', bf1, g1, l1)
  else if fltb f v then exists z w g2, rep (upd y i (fadd F old (fmul F (flit F 1 2) si))) z /\ evaluated z w l1 l' /\ best_upd z w b1' bf1 g1 b' bf' g2 /\
    if fleb f w then x' = upd z i old /\ f' = f /\ imp' = imp /\ g' = g2 else x' = z /\ f' = w /\ imp' = true /\ g' = fadd F g2 b2
  else x' = y /\ f' = v /\ imp' = true /\ (b', bf', g', l') = (b1', bf1, fadd F g1 b2, l1).
Lemma w_ls1_step : forall sr i s l, wp (K_tr E) (ls1_step F b1 b2 sr s i) (fun s' l' => ls1_moves sr i s l s' l') l.
Proof.
  intros sr i [[[[[x f] b] bf] imp] g] l. unfold ls1_step. apply wp_bind. apply w_nthP_tr. intros old Eo. apply wp_bind. apply w_nthP_tr. intros si Es.
  apply wp_bind. apply w_repair_tr. intros y Hy. apply wp_bind. apply w_eval_tr. intros v l1 Hv.
  set (t := if fltb v bf then (Some y, v, fadd F g b1) else (b, bf, g)). assert (Ht : best_upd y v b bf g (fst (fst t)) (snd (fst t)) (snd t)) by (unfold best_upd, t; destruct (fltb v bf); auto).
  clearbody t. destruct t as [[b1' bf1] g1]. cbn [fst snd] in Ht. destruct (feqb v f) eqn:Q1; [|destruct (fltb f v) eqn:Q2].
  - apply wp_bind. apply AlgShadeProofs.w_setP_x; [right; exact I|]. intros _. apply w_done. exists old, si, y, v, l1, b1', bf1, g1. rewrite Q1. auto 12.
  - apply wp_bind. apply AlgShadeProofs.w_setP_x; [right; exact I|]. intros _. apply wp_bind. apply w_repair_tr. intros z Hz. apply wp_bind. apply w_eval_tr. intros w l2 Hw.
    set (t := if fltb w bf1 then (Some z, w, fadd F g1 b1) else (b1', bf1, g1)). assert (Ht2 : best_upd z w b1' bf1 g1 (fst (fst t)) (snd (fst t)) (snd t)) by (unfold best_upd, t; destruct (fltb w bf1); auto).
    clearbody t. destruct t as [[b2' bf2] g2]. cbn [fst snd] in Ht2. destruct (fleb f w) eqn:Q3.
    + apply wp_bind. apply AlgShadeProofs.w_setP_x; [right; exact I|]. intros _. apply w_done. exists old, si, y, v, l1, b1', bf1, g1. rewrite Q1, Q2. do 5 (split; [assumption|]). exists z, w, g2. rewrite Q3. auto 8.
    + apply w_done. exists old, si, y, v, l1, b1', bf1, g1. rewrite Q1, Q2. do 5 (split; [assumption|]). exists z, w, g2. rewrite Q3. auto 8.
  - apply w_done. exists old, si, y, v, l1, b1', bf1, g1. rewrite Q1, Q2. auto 12.
Qed.

(** mts_ls1v1 in component i: the step down is a random part of the search range; a new best changes neither the value of the solution nor improve,
    and the solution stays at the new best *)
Definition ls1v1_moves (sr d : vec) (i : nat) (s : lst) (l : elog) (s' : lst) (l' : elog) : Prop :=
  let '(x, f, b, bf, imp, g) := s in
  exists old si di y v l1, nth_error x i = Some old /\ nth_error sr i = Some si /\ nth_error d i = Some di /\ rep (upd x i (fsub F old (fmul F si di))) y /\ evaluated y v l l1 /\
  if fltb v bf then s' = (y, f, Some y, v, imp, fadd F g b1) /\ l' = l1
  else if feqb v f then s' = (upd y i old, f, b, bf, imp, g) /\ l' = l1
  else if fltb f v then exists z w, rep (upd y i (fadd F old (fmul F (flit F 1 2) si))) z /\ evaluated z w l1 l' /\
    s' = if fltb w bf then (z, f, Some z, w, imp, fadd F g b1) else if fleb f w then (upd z i old, f, b, bf, imp, g) else (z, w, b, bf, true, fadd F g b2)
  else s' = (y, v, b, bf, true, fadd F g b2) /\ l' = l1.
Lemma w_ls1v1_step : forall sr d i s l, wp (K_tr E) (ls1v1_step F b1 b2 sr d s i) (fun s' l' => ls1v1_moves sr d i s l s' l') l.
Proof.
  intros sr d i [[[[[x f] b] bf] imp] g] l. unfold ls1v1_step. apply wp_bind. apply w_nthP_tr. intros old Eo. apply wp_bind. apply w_nthP_tr. intros si Es. apply wp_bind. apply w_nthP_tr. intros di Ed.
  apply wp_bind. apply w_repair_tr. intros y Hy. apply wp_bind. apply w_eval_tr. intros v l1 Hv. unfold ls1v1_moves.
  destruct (fltb v bf) eqn:Q0; [|destruct (feqb v f) eqn:Q1; [|destruct (fltb f v) eqn:Q2]].
  - apply w_done. exists old, si, di, y, v, l1. rewrite Q0. auto 12.
  - apply wp_bind. apply AlgShadeProofs.w_setP_x; [right; exact I|]. intros _. apply w_done. exists old, si, di, y, v, l1. rewrite Q0, Q1. auto 12.
  - apply wp_bind. apply AlgShadeProofs.w_setP_x; [right; exact I|]. intros _. apply wp_bind. apply w_repair_tr. intros z Hz. apply wp_bind. apply w_eval_tr. intros w l2 Hw.
    destruct (fltb w bf) eqn:Q3; [|destruct (fleb f w) eqn:Q4].
    + apply w_done. exists old, si, di, y, v, l1. rewrite Q0, Q1, Q2. do 5 (split; [assumption|]). exists z, w. rewrite Q3. auto.
    + apply wp_bind. apply AlgShadeProofs.w_setP_x; [right; exact I|]. intros _. apply w_done. exists old, si, di, y, v, l1. rewrite Q0, Q1, Q2. do 5 (split; [assumption|]). exists z, w. rewrite Q3, Q4. auto.
    + apply w_done. exists old, si, di, y, v, l1. rewrite Q0, Q1, Q2. do 5 (split; [assumption|]). exists z, w. rewrite Q3, Q4. auto.
  - apply w_done. exists old, si, di, y, v, l1. rewrite Q0, Q1, Q2. auto 12.
Qed.

(** y is x with the components whose draw from 0, 1, 2, 3 is 0 changed by op with a random part of the search range between -1 and 1 *)
Definition jumps (op : num -> num -> num) (r : list nat) (u x sr y : vec) : Prop :=
  length y = min (length x) (length sr) /\ forall j a s c, nth_error x j = Some a -> nth_error sr j = Some s -> nth_error y j = Some c ->
    exists rj uj, nth_error r j = Some rj /\ nth_error u j = Some uj /\ c = if rj =? 0 then op a (fmul F s (fadd F (fneg f1) (fmul F uj (flit F 2 1)))) else a.
Lemma move_jumps : forall op r u x sr, length r = length x -> length u = length x -> jumps op r u x sr (move_x F op r x (map (fun a => fadd F (fneg f1) (fmul F a (flit F 2 1))) u) sr).
Proof.
  intros op. unfold jumps, move_x. induction r as [|r0 r IH]; intros [|u0 u] [|x0 x] sr L1 L2; try discriminate; cbn [map combine map2 length min] in *; [split; [reflexivity|intros [|j]; discriminate]|].
  destruct sr as [|s0 sr]; cbn [combine map2 length]; [split; [reflexivity|intros [|j]; discriminate]|]. injection L1 as L1. injection L2 as L2. destruct (IH u x sr L1 L2) as [I1 I2].
  split; [f_equal; exact I1|]. intros [|j] a s c H1 H2 H3; cbn [nth_error] in H1, H2, H3; [|destruct (I2 j a s c H1 H2 H3) as (rj & uj & G); exists rj, uj; exact G]. injection H1 as <-. injection H2 as <-. injection H3 as <-. exists r0, u0. auto.
Qed.
(** mts_ls2, one pass: a random jump, and if that is worse the opposite one; a new best does not change the solution *)
Definition ls2_moves (sr : vec) (i : nat) (s : lst) (l : elog) (s' : lst) (l' : elog) : Prop :=
  let '(x, f, b, bf, imp, g) := s in
  exists r u z1 y v l1, length r = length x /\ length u = length x /\ Forall (fun k => k < 4) r /\ Forall in_unit u /\ jumps (fsub F) r u x sr z1 /\ rep z1 y /\ evaluated y v l l1 /\
  if fltb v bf then s' = (x, f, Some y, v, imp, fadd F g b1) /\ l' = l1
  else if feqb v f then s' = s /\ l' = l1
  else if fltb f v then exists z2 z w, jumps (fadd F) r u x sr z2 /\ rep z2 z /\ evaluated z w l1 l' /\
    s' = if fltb w bf then (x, f, Some z, w, imp, fadd F g b1) else if fltb w f then (z, w, b, bf, true, fadd F g b2) else s
  else s' = (y, v, b, bf, true, fadd F g b2) /\ l' = l1.
Lemma w_ls2_step : forall sr i s l, wp (K_tr E) (ls2_step F b1 b2 sr s i) (fun s' l' => ls2_moves sr i s l s' l') l.
Proof.
  intros sr i [[[[[x f] b] bf] imp] g] l. unfold ls2_step. apply wp_bind. apply w_random_vec_u. intros u Lu Hu. apply wp_bind.
  apply (w_repeatM_pure _ _ _ (fun k => k < 4)); [intros P HP; apply w_integers_tr; auto|]. intros r Lr Hr. cbv zeta. apply wp_bind. apply w_repair_tr. intros y Hy. apply wp_bind. apply w_eval_tr. intros v l1 Hv. unfold ls2_moves.
  assert (J1 := move_jumps (fsub F) r u x sr Lr Lu). assert (J2 := move_jumps (fadd F) r u x sr Lr Lu). set (z1 := move_x _ (fsub F) _ _ _ _) in *. set (z2 := move_x _ (fadd F) _ _ _ _) in *.
  destruct (fltb v bf) eqn:Q0; [|destruct (feqb v f) eqn:Q1; [|destruct (fltb f v) eqn:Q2]].
  - apply w_done. exists r, u, z1, y, v, l1. rewrite Q0. auto 12.
  - apply w_done. exists r, u, z1, y, v, l1. rewrite Q0, Q1. auto 12.
  - apply wp_bind. apply w_repair_tr. intros z Hz. apply wp_bind. apply w_eval_tr. intros w l2 Hw.
    assert (G : forall s', s' = (if fltb w bf then (x, f, Some z, w, imp, fadd F g b1) else if fltb w f then (z, w, b, bf, true, fadd F g b2) else (x, f, b, bf, imp, g)) -> exists r u z1 y v l1, length r = length x /\ length u = length x /\ Forall (fun k => k < 4) r /\ Forall in_unit u /\ jumps (fsub F) r u x sr z1 /\ rep z1 y /\ evaluated y v l l1 /\
      if fltb v bf then s' = (x, f, Some y, v, imp, fadd F g b1) /\ l2 = l1 else if feqb v f then s' = (x, f, b, bf, imp, g) /\ l2 = l1 else if fltb f v then exists z2 z w, jumps (fadd F) r u x sr z2 /\ rep z2 z /\ evaluated z w l1 l2 /\
      s' = (if fltb w bf then (x, f, Some z, w, imp, fadd F g b1) else if fltb w f then (z, w, b, bf, true, fadd F g b2) else (x, f, b, bf, imp, g)) else s' = (y, v, b, bf, true, fadd F g b2) /\ l2 = l1).
    { intros s' Es. exists r, u, z1, y, v, l1. rewrite Q0, Q1, Q2. do 7 (split; [assumption|]). exists z2, z, w. auto. }
    destruct (fltb w bf); [apply w_done; apply G; reflexivity|]. destruct (fltb w f); apply w_done; apply G; reflexivity.
  - apply w_done. exists r, u, z1, y, v, l1. rewrite Q0, Q1, Q2. auto 12.
Qed.

(** mts_ls3 in component i: the values v1, v2, v3 at 0.1, -0.1 and 0.2 from it, then a step made of the differences (0 for an infinite value) and of random weights;
    the search goes on from there in any case, but the solution and its value follow only if the step is better than the solution (None: the solution is x_new itself) *)
Definition diff (f v : num) : num := match v with PInf | NInf => f0 | _ => fsub F f v end.
Definition best3 (y : vec) (v : num) (t t' : option vec * num * bool * num) : Prop :=
  let '(b, bf, imp, g) := t in if fltb v bf then t' = (Some y, v, true, fadd F g b1) else t' = t.
Definition gain3 (d : num) (t t' : bool * num) : Prop := if fltb f0 d then t' = (true, fadd F (snd t) b2) else t' = t.
Definition ls3_moves (i : nat) (s : lst3) (l : elog) (s' : lst3) (l' : elog) : Prop :=
  let '(xn, c, f, b, bf, imp, g) := s in
  exists a x1 x2 x3 v1 v2 v3 l1 l2 l3 t1 t2 b' bf' imp' g' u1 u2 imp'' g'' ra rb rc y v, nth_error xn i = Some a /\
    rep (upd xn i (fadd F a (flit F 1 10))) x1 /\ rep (upd xn i (fsub F a (flit F 1 10))) x2 /\ rep (upd xn i (fadd F a (flit F 1 5))) x3 /\
    evaluated x1 v1 l l1 /\ evaluated x2 v2 l1 l2 /\ evaluated x3 v3 l2 l3 /\
    best3 x1 v1 (b, bf, imp, g) t1 /\ best3 x2 v2 t1 t2 /\ best3 x3 v3 t2 (b', bf', imp', g') /\
    gain3 (diff f v1) (imp', g') u1 /\ gain3 (diff f v2) u1 u2 /\ gain3 (diff f v3) u2 (imp'', g'') /\ in_unit ra /\ in_unit rb /\ in_unit rc /\
    rep (upd xn i (fadd F a (fadd F (fadd F (fmul F (fadd F (flit F 2 5) (fmul F ra (flit F 1 10))) (fsub F (diff f v1) (diff f v2)))
      (fmul F (fadd F (flit F 1 10) (fmul F rb (flit F 1 5))) (fsub F (diff f v3) (fmul F (flit F 2 1) (diff f v1))))) rc))) y /\
    evaluated y v l3 l' /\
    s' = if fltb v f then (if fltb v bf' then (y, None, v, Some y, v, true, fadd F g'' b1) else (y, None, v, b', bf', true, fadd F g'' b2)) else (y, c, f, b', bf', imp'', g'').
Lemma best3_is : forall y v t, best3 y v t (ls3_best F b1 y v t).
Proof. intros y v [[[b bf] imp] g]. unfold best3, ls3_best. destruct (fltb v bf); reflexivity. Qed.
Lemma gain3_is : forall d t, gain3 d t (ls3_gain F b2 d t).
Proof. intros d t. unfold gain3, ls3_gain. destruct (fltb f0 d); reflexivity. Qed.
Lemma w_ls3_step : forall i s l, wp (K_tr E) (ls3_step F b1 b2 s i) (fun s' l' => ls3_moves i s l s' l') l.
Proof.
  intros i [[[[[[xn c] f] b] bf] imp] g] l. unfold ls3_step. apply wp_bind. apply w_nthP_tr. intros a Ea. do 3 (apply wp_bind; apply w_repair_tr; let y := fresh "z" in intros y ?). do 3 (apply wp_bind; apply w_eval_tr; let y := fresh "p" in intros y ? ?).
  match goal with |- context [ls3_best F b1 ?x3 ?v3 (ls3_best F b1 ?x2 ?v2 (ls3_best F b1 ?x1 ?v1 ?t))] => assert (B1 := best3_is x1 v1 t); set (t1 := ls3_best F b1 x1 v1 t) in *; assert (B2 := best3_is x2 v2 t1); set (t2 := ls3_best F b1 x2 v2 t1) in *; assert (B3 := best3_is x3 v3 t2); destruct (ls3_best F b1 x3 v3 t2) as [[[b' bf'] imp'] g'] end.
  cbv zeta. match goal with |- context [ls3_gain F b2 ?d3 (ls3_gain F b2 ?d2 (ls3_gain F b2 ?d1 ?t))] => assert (G1 := gain3_is d1 t); set (u1 := ls3_gain F b2 d1 t) in *; assert (G2 := gain3_is d2 u1); set (u2 := ls3_gain F b2 d2 u1) in *; assert (G3 := gain3_is d3 u2); destruct (ls3_gain F b2 d3 u2) as [imp'' g''] end.
  apply wp_bind. apply w_random_u. intros ra Ra. apply wp_bind. apply w_random_u. intros rb Rb. apply wp_bind. apply w_random_u. intros rc Rc. apply wp_bind. apply w_repair_tr. intros y Hy. apply wp_bind. apply w_eval_tr. intros v l4 Hv.
  assert (G : forall s', s' = (if fltb v f then (if fltb v bf' then (y, None, v, Some y, v, true, fadd F g'' b1) else (y, None, v, b', bf', true, fadd F g'' b2)) else (y, c, f, b', bf', imp'', g'')) -> ls3_moves i (xn, c, f, b, bf, imp, g) l s' l4).
  { intros s' Es. unfold ls3_moves. do 10 eexists. exists t1, t2, b', bf', imp', g', u1, u2, imp'', g'', ra, rb, rc, y, v. split; [exact Ea|]. do 3 (split; [eassumption|]). do 3 (split; [eassumption|]). do 3 (split; [assumption|]). do 3 (split; [assumption|]). do 3 (split; [assumption|]).
    split; [exact Hy|]. split; [exact Hv|exact Es]. }
  destruct (fltb v f); [destruct (fltb v bf')|]; apply w_done; apply G; reflexivity.
Qed.

(** mts_ls3v1, one pass with the displacements disp: three random permutations of the components, displaced; the grade counts the ones better than the best and
    the other ones better than the solution; the first best of those better than the best becomes both, else the first best of those better than the solution the solution *)
Definition first_best (t : num) (rows : list (vec * num)) (r : vec * num) : Prop :=
  exists pre post, rows = pre ++ r :: post /\ fltb (snd r) t = true /\ (forall q, In q pre -> fltb (snd q) t = true -> fltb (snd r) (snd q) = true) /\ (forall q, In q post -> fltb (snd q) (snd r) = false).
Definition shuffled_row (x disp y : vec) : Prop :=
  exists pi u, Permutation (seq 0 (length x)) pi /\ length u = length x /\ Forall (fun c => fleb (fneg f1) c = true /\ fleb c f1 = true) u /\
    y = map2 (fadd F) (map (fun i => nth i x f0) pi) (map2 (fmul F) disp u).
Definition ls3v1_moves (disp : vec) (s : lst) (l : elog) (s' : lst) (l' : elog) : Prop :=
  let '(x, f, b, bf, imp, g) := s in
  exists ys zs vs, length ys = 3 /\ Forall (shuffled_row x disp) ys /\ Forall2 rep ys zs /\ evaluated_all zs vs l l' /\
    let rows := combine zs vs in let k := length (filter (fun r => fltb (snd r) bf) rows) in let n := length (filter (fun r => fltb (snd r) f) rows) in
    let g' := fadd F g (fadd F (fmul F (fnat F k) b1) (fmul F (fz F (Z.of_nat n - Z.of_nat k)) b2)) in
    (exists r, first_best bf rows r /\ s' = (fst r, snd r, Some (fst r), snd r, true, g')) \/
    (k = 0 /\ exists r, first_best f rows r /\ s' = (fst r, snd r, b, bf, true, g')) \/
    (k = 0 /\ n = 0 /\ s' = (x, f, b, bf, imp, g')).
Lemma least_some : forall rows b, Forall (fun q => snd q <> NaN) (b :: rows) -> exists r, least (Some b) rows = Some r /\
  ((r = b /\ forall q, In q rows -> fltb (snd q) (snd b) = false) \/
   (exists pre post, rows = pre ++ r :: post /\ fltb (snd r) (snd b) = true /\ (forall q, In q pre -> fltb (snd r) (snd q) = true) /\ forall q, In q post -> fltb (snd q) (snd r) = false)).
Proof.
  induction rows as [|a rows IH]; intros b Hn; cbn [least]; [exists b; split; [reflexivity|left; split; [reflexivity|intros q []]]|]. inversion Hn as [|? ? Nb Hn']; subst. inversion Hn' as [|? ? Na Hr]; subst. destruct (fltb (snd a) (snd b)) eqn:Q.
  - destruct (IH a ltac:(auto)) as (r & R1 & [[-> R2]|(pre & post & -> & R2 & R3 & R4)]); [exists a|exists r]; (split; [exact R1|]); right; [exists [], rows|exists (a :: pre), post].
    + split; [reflexivity|]. split; [exact Q|]. split; [intros q []|exact R2].
    + split; [reflexivity|]. split; [eapply fltb_trans; eauto|]. split; [|exact R4]. intros q [<-|H]; auto.
  - destruct (IH b ltac:(auto)) as (r & R1 & [[-> R2]|(pre & post & -> & R2 & R3 & R4)]); [exists b|exists r]; (split; [exact R1|]); [left; split; [reflexivity|]; intros q [<-|H]; auto|].
    right. exists (a :: pre), post. split; [reflexivity|]. split; [exact R2|]. split; [|exact R4]. intros q [<-|H]; auto. eapply fltb_fleb_trans; [exact R2|]. apply fltb_false_fleb; auto.
Qed.
Lemma filter_split : forall A (p : A -> bool) rows pre r post, filter p rows = pre ++ r :: post -> exists pre' post', rows = pre' ++ r :: post' /\ filter p pre' = pre /\ filter p post' = post.
Proof.
  intros A p. induction rows as [|a rows IH]; intros pre r post H; cbn [filter] in H; [destruct pre; discriminate|]. destruct (p a) eqn:Q.
  - destruct pre as [|a' pre]; cbn [app] in H; injection H as -> H; [exists [], rows; auto|]. destruct (IH _ _ _ H) as (pre' & post' & -> & H1 & H2). exists (a' :: pre'), post'. cbn [filter app]. rewrite Q, H1. auto.
  - destruct (IH _ _ _ H) as (pre' & post' & -> & H1 & H2). exists (a :: pre'), post'. cbn [filter app]. rewrite Q. auto.
Qed.
Lemma least_first : forall t rows, match least None (below t rows) with Some r => first_best t rows r | None => filter (fun r => fltb (snd r) t) rows = [] end.
Proof.
  intros t rows. unfold below. destruct (filter (fun r => fltb (snd r) t) rows) as [|b bs] eqn:Q; cbn [least]; [reflexivity|].
  assert (Hb : forall q, In q (b :: bs) -> fltb (snd q) t = true) by (intros q Hq; rewrite <- Q in Hq; apply filter_In in Hq; tauto).
  destruct (least_some bs b) as (r & -> & R). { apply Forall_forall. intros q Hq N. apply Hb in Hq. rewrite N in Hq. destruct t; discriminate. }
  assert (G : exists pre post, b :: bs = pre ++ r :: post /\ (forall q, In q pre -> fltb (snd r) (snd q) = true) /\ forall q, In q post -> fltb (snd q) (snd r) = false).
  { destruct R as [[-> R]|(pre & post & -> & R1 & R2 & R3)]; [exists [], bs|exists (b :: pre), post]; (split; [reflexivity|]); (split; [|assumption]); [intros q []|intros q [<-|H]; auto]. }
  destruct G as (pre & post & G1 & G2 & G3). assert (Hr : fltb (snd r) t = true) by (apply Hb; rewrite G1; apply in_or_app; right; left; reflexivity). rewrite G1 in Q. destruct (filter_split _ _ _ _ _ _ Q) as (pre' & post' & -> & H1 & H2).
  exists pre', post'. split; [reflexivity|]. split; [exact Hr|]. split.
  - intros q Hq Hl. apply G2. rewrite <- H1. apply filter_In. auto.
  - intros q Hq. destruct (fltb (snd q) (snd r)) eqn:X; [|reflexivity]. rewrite <- X. apply G3. rewrite <- H2. apply filter_In. split; [exact Hq|]. eapply fltb_trans; eauto.
Qed.
Lemma nth_repeat_lt : forall (a d : num) n k, k < n -> nth k (repeat a n) d = a.
Proof. intros a d. induction n as [|n IH]; intros [|k] H; cbn; try lia; auto. apply IH. lia. Qed.
Lemma w_shuffled_row : forall x disp (Q : vec -> elog -> Prop) l, (forall y, shuffled_row x disp y -> Q y l) -> wp (K_tr E) (ls3v1_row F x disp) Q l.
Proof.
  intros x disp Q l HQ. unfold ls3v1_row. apply wp_bind. apply w_permutation. intros pi L1 L2 L3. apply wp_bind. apply (w_uniform_vec_len _ _ _ (length x)); [apply repeat_length|apply repeat_length|]. intros u [Lu Hu]. apply w_done. apply HQ.
  exists pi, u. split; [|split; [exact Lu|split; [|reflexivity]]].
  - apply Permutation_sym. apply NoDup_Permutation_bis; [exact L2|rewrite seq_length; lia|]. intros i Hi. apply in_seq. split; [lia|]. apply L3; exact Hi.
  - apply Forall_forall. intros c Hc. apply In_nth with (d := NaN) in Hc. destruct Hc as (k & Hk & <-). assert (G := Hu k ltac:(lia)). rewrite !nth_repeat_lt in G by lia. apply G. vm_compute. reflexivity.
Qed.
Lemma w_ls3v1_pass : forall s disp l, wp (K_tr E) (ls3v1_pass F b1 b2 s disp) (fun s' l' => ls3v1_moves disp s l s' l') l.
Proof.
  intros [[[[[x f] b] bf] imp] g] disp l. unfold ls3v1_pass. apply wp_bind. apply (w_repeatM_pure _ _ _ (shuffled_row x disp)); [intros P HP; apply w_shuffled_row; auto|]. intros ys Ly Hy.
  apply wp_bind. apply w_repair_all_tr. intros zs Hz. apply wp_bind. apply w_eval_all_tr. intros vs l' Hv. cbv zeta. apply w_done. exists ys, zs, vs. do 4 (split; [assumption|]). cbv zeta. set (rows := combine zs vs).
  assert (L1 := least_first bf rows). assert (L2 := least_first f rows). destruct (least None (below bf rows)) as [[y v]|]; [left; exists (y, v); split; [exact L1|reflexivity]|right].
  destruct (least None (below f rows)) as [[y v]|]; [left|right]; (split; [rewrite L1; reflexivity|]); [exists (y, v); split; [exact L2|reflexivity]|split; [rewrite L2; reflexivity|reflexivity]].
Qed.
(** the displacements: a tenth of the range first, then a tenth of the part of the box within two displacements of the solution; until none is above 0.001 *)
Definition next_disp (x disp disp' : vec) : Prop :=
  length disp' = min (min (length (c_upper C)) (min (length x) (length disp))) (min (length (c_lower C)) (min (length x) (length disp))) /\
  forall i u o a d d', nth_error (c_upper C) i = Some u -> nth_error (c_lower C) i = Some o -> nth_error x i = Some a -> nth_error disp i = Some d -> nth_error disp' i = Some d' ->
    d' = fdiv F (fsub F (np_fmin u (fadd F a (fmul F (flit F 2 1) d))) (np_fmax o (fsub F a (fmul F (flit F 2 1) d)))) (flit F 10 1).
Lemma next_disp_is : forall x disp, next_disp x disp (ls3v1_disp F C x disp).
Proof.
  intros x disp. unfold next_disp, ls3v1_disp. split; [rewrite map_length, !map2_len, !map_length; reflexivity|]. intros i u o a d d' Hu Ho Ha Hd Hd'.
  assert (M : forall (h : num -> num -> num) xs ys p q, nth_error xs i = Some p -> nth_error ys i = Some q -> nth_error (map2 h xs ys) i = Some (h p q)).
  { clear. intros h. induction i as [|i IH]; intros [|x xs] [|y ys] p q H1 H2; try discriminate; cbn in *; [congruence|apply IH; auto]. }
  assert (T := map_nth_error (fun d => fmul F (flit F 2 1) d) i disp Hd). rewrite (map_nth_error _ _ _ (M (fsub F) _ _ _ _ (M np_fmin _ _ _ _ Hu (M (fadd F) _ _ _ _ Ha T)) (M np_fmax _ _ _ _ Ho (M (fsub F) _ _ _ _ Ha T)))) in Hd'. congruence.
Qed.
Inductive ls3v1_moves_all : lst -> vec -> elog -> lst -> elog -> Prop :=
| lma_end : forall s disp l, Forall (fun d => fltb (flit F 1 1000) d = false) disp -> ls3v1_moves_all s disp l s l
| lma_pass : forall s disp l s1 l1 disp' s2 l2, Exists (fun d => fltb (flit F 1 1000) d = true) disp -> ls3v1_moves disp s l s1 l1 ->
    next_disp (fst (fst (fst (fst (fst s1))))) disp disp' -> ls3v1_moves_all s1 disp' l1 s2 l2 -> ls3v1_moves_all s disp l s2 l2.
Lemma w_ls3v1_loop : forall fuel s disp l (Q : lst -> elog -> Prop), (forall s' l', ls3v1_moves_all s disp l s' l' -> Q s' l') -> wp (K_tr E) (ls3v1_loop F C b1 b2 fuel s disp) Q l.
Proof.
  induction fuel as [|fuel IH]; intros s disp l Q HQ; cbn [ls3v1_loop]; destruct (existsb _ disp) eqn:B.
  - exact I.
  - apply w_done. apply HQ. constructor. apply Forall_forall. intros d Hd. destruct (fltb (flit F 1 1000) d) eqn:X; [|reflexivity]. rewrite <- B. symmetry. apply existsb_exists. eauto.
  - apply wp_bind. eapply wp_conseq0; [apply w_ls3v1_pass|]. intros s1 l1 H1. apply IH. intros s2 l2 H2. apply HQ. apply existsb_exists in B. econstructor; [apply Exists_exists; exact B|exact H1|apply next_disp_is|exact H2].
  - apply w_done. apply HQ. constructor. apply Forall_forall. intros d Hd. destruct (fltb (flit F 1 1000) d) eqn:X; [|reflexivity]. rewrite <- B. symmetry. apply existsb_exists. eauto.
Qed.

(** the searches *)
Definition lst_of (r : lsr) : lst := (l_x r, l_f r, l_b r, l_bf r, l_imp r, l_g r).
Definition searched (k : lsearch) (x : vec) (f : num) (b : option vec) (bf : num) (imp : bool) (sr : vec) (l : elog) (r : lsr) (l' : elog) : Prop :=
  match k with
  | LS1 => shrunk imp sr (l_sr r) /\ chain (ls1_moves (l_sr r)) (seq 0 (length x)) (x, f, b, bf, false, f0) l (lst_of r) l'
  | LS1v1 => shrunk imp sr (l_sr r) /\ exists d, length d = c_dim C /\ Forall (fun c => fleb (fneg f1) c = true /\ fleb c f1 = true) d /\ chain (ls1v1_moves (l_sr r) d) (seq 0 (length x)) (x, f, b, bf, false, f0) l (lst_of r) l'
  | LS2 => shrunk imp sr (l_sr r) /\ chain (ls2_moves (l_sr r)) (seq 0 (length x)) (x, f, b, bf, false, f0) l (lst_of r) l'
  | LS3 => l_sr r = sr /\ exists xn c, chain ls3_moves (seq 0 (length x)) (x, Some x, f, b, bf, imp, f0) l (xn, c, l_f r, l_b r, l_bf r, l_imp r, l_g r) l' /\ l_x r = match c with Some y => y | None => xn end
  | LS3v1 => l_sr r = sr /\ exists disp, disp = map (fun r => fdiv F r (flit F 10 1)) (vsub F (c_upper C) (c_lower C)) /\ ls3v1_moves_all (x, f, b, bf, imp, f0) disp l (lst_of r) l'
  end.
Lemma w_searched : forall fuel k x f b bf imp sr l (Q : lsr -> elog -> Prop), (forall r l', searched k x f b bf imp sr l r l' -> Q r l') -> wp (K_tr E) (run_ls F C fuel k b1 b2 x f b bf imp sr) Q l.
Proof.
  intros fuel k x f b bf imp sr l Q HQ. assert (Sh := shrunk_is imp sr). destruct k; cbn [run_ls].
  - unfold mts_ls1. cbv zeta. apply wp_bind. apply (w_chain _ _ _ _ (ls1_moves (shrink F C imp sr))); [intros i s l1; apply w_ls1_step|]. intros [[[[[x' f'] b'] bf'] imp'] g] l' H. apply w_done. apply HQ. split; [exact Sh|exact H].
  - unfold mts_ls1v1. cbv zeta. apply wp_bind. apply (w_uniform_vec_len _ _ _ (c_dim C)); [apply repeat_length|apply repeat_length|]. intros d [Ld Hd]. apply wp_bind.
    apply (w_chain _ _ _ _ (ls1v1_moves (shrink F C imp sr) d)); [intros i s l1; apply w_ls1v1_step|]. intros [[[[[x' f'] b'] bf'] imp'] g] l' H. apply w_done. apply HQ. split; [exact Sh|]. exists d. split; [exact Ld|]. split; [|exact H].
    apply Forall_forall. intros c Hc. apply In_nth with (d := NaN) in Hc. destruct Hc as (j & Hj & <-). assert (G := Hd j ltac:(lia)). rewrite !nth_repeat_lt in G by lia. apply G. vm_compute. reflexivity.
  - unfold mts_ls2. cbv zeta. apply wp_bind. apply (w_chain _ _ _ _ (ls2_moves (shrink F C imp sr))); [intros i s l1; apply w_ls2_step|]. intros [[[[[x' f'] b'] bf'] imp'] g] l' H. apply w_done. apply HQ. split; [exact Sh|exact H].
  - unfold mts_ls3. apply wp_bind. apply (w_chain _ _ _ _ ls3_moves); [intros i s l1; apply w_ls3_step|]. intros [[[[[[xn c] f'] b'] bf'] imp'] g] l' H. apply w_done. apply HQ. split; [reflexivity|]. exists xn, c. split; [exact H|reflexivity].
  - unfold mts_ls3v1. apply wp_bind. apply w_ls3v1_loop. intros [[[[[x' f'] b'] bf'] imp'] g] l' H. apply w_done. apply HQ. split; [reflexivity|]. eexists. split; [reflexivity|exact H].
Qed.
End Searches.

(** * C127: the iteration *)
Section Iteration.
Variable F : fops.
Variable E : env.
Variable p : mts_par.
Let C := e_cfg E.
(** one search on a solution, the best solution, improve and the search range *)
Definition search_on (c1 c2 : num) (k : lsearch) (t : trj) (l : elog) (t' : trj) (g : num) (l' : elog) : Prop :=
  exists r, searched F E c1 c2 k (t_x t) (t_f t) (Some (t_b t)) (t_bf t) (t_im t) (t_sr t) l r l' /\ g = l_g r /\
    t' = Trj (l_x r) (l_f r) (match l_b r with Some b => b | None => l_x r end) (l_bf r) (l_imp r) (l_sr r).
Lemma w_one_ls : forall fuel c1 c2 k t l (Q : trj * num -> elog -> Prop), (forall t' g l', search_on c1 c2 k t l t' g l' -> Q (t', g) l') -> wp (K_tr E) (one_ls F C fuel k c1 c2 t) Q l.
Proof. intros fuel c1 c2 k t l Q HQ. unfold one_ls. apply wp_bind. apply w_searched. intros r l' H. apply w_done. apply HQ. exists r. auto. Qed.
(** grading_run: every search num_tests times, each from where the one before it stopped, with the bonuses 10 and 1 *)
Definition graded (t : trj) (l : elog) (t' : trj) (l' : elog) : Prop :=
  chain (fun k t l t' l' => chain (fun _ t l t' l' => exists g, search_on (flit F 10 1) (flit F 1 1) k t l t' g l') (seq 0 (mt_tests p)) t l t' l') (mt_ls p) t l t' l'.
Lemma chain_snd : forall A B S (R : B -> S -> elog -> S -> elog -> Prop) (xs : list A) (ys : list B) s l s' l', length xs = length ys ->
  chain (fun ab => R (snd ab)) (combine xs ys) s l s' l' -> chain R ys s l s' l'.
Proof.
  intros A B S R. induction xs as [|x xs IH]; intros [|y ys] s l s' l' L H; try discriminate; inversion H; subst; [constructor|]. econstructor; [eassumption|]. apply IH; auto.
Qed.
Lemma w_graded : forall t l (Q : trj -> elog -> Prop), (forall t' l', graded t l t' l' -> Q t' l') -> wp (K_tr E) (grading_run F C p t) Q l.
Proof.
  intros t l Q HQ. unfold grading_run. assert (L : length (seq 0 (length (mt_ls p))) = length (mt_ls p)) by apply seq_length.
  assert (W : wp (K_tr E) (foldM (fun t ik => for_range (mt_tests p) (fun t _ => let* r := one_ls F C (mt_fuel p) (snd ik) (flit F 10 1) (flit F 1 1) t in if fst ik <? 3 then Done (fst r) else Fail EIndex) t) (combine (seq 0 (length (mt_ls p))) (mt_ls p)) t) Q l).
  { apply (w_chain _ _ _ _ (fun ik t l t' l' => chain (fun _ t l t' l' => exists g, search_on (flit F 10 1) (flit F 1 1) (snd ik) t l t' g l') (seq 0 (mt_tests p)) t l t' l')).
    - intros [i k] s l1. apply (w_chain _ _ _ _ (fun _ t l t' l' => exists g, search_on (flit F 10 1) (flit F 1 1) k t l t' g l')); [|auto].
      intros j s1 l2. apply wp_bind. apply w_one_ls. intros t' g l' H. cbn [fst snd]. destruct (i <? 3); [apply w_done; eauto|exact I].
    - intros t' l' H. apply HQ. apply (chain_snd _ _ _ _ _ _ _ _ _ _ L H). }
  destruct (mt_ls p); [exact I|exact W].
Qed.
(** run_local_search: num_searches searches with the bonuses of the class, adding up the grades *)
Definition local_searches (k : lsearch) (t : trj) (l : elog) (t' : trj) (g' : num) (l' : elog) : Prop :=
  chain (fun _ tg l tg' l' => exists g, search_on (mt_b1 p) (mt_b2 p) k (fst tg) l (fst tg') g l' /\ snd tg' = fadd F (snd tg) g) (seq 0 (mt_searches p)) (t, f0) l (t', g') l'.
Lemma w_local_searches : forall k t l (Q : trj * num -> elog -> Prop), (forall t' g' l', local_searches k t l t' g' l' -> Q (t', g') l') -> wp (K_tr E) (run_local_search F C p k t f0) Q l.
Proof.
  intros k t l Q HQ. unfold run_local_search. apply (w_chain _ _ _ _ (fun _ tg l tg' l' => exists g, search_on (mt_b1 p) (mt_b2 p) k (fst tg) l (fst tg') g l' /\ snd tg' = fadd F (snd tg) g)).
  - intros j [t1 g1] l1. apply wp_bind. apply w_one_ls. intros t' g l' H. apply w_done. exists g. auto.
  - intros [t' g'] l' H. apply HQ. exact H.
Qed.
(** the members in turn: an enabled one is graded and then searched with the last search, again with its old improve flag, and disabled *)
Definition member_moves (r : vec * num * mext) (xb : vec) (fxb : num) (l : elog) (r' : vec * num * mext) (xb' : vec) (fxb' : num) (l' : elog) : Prop :=
  let '(x, f, e) := r in
  if m_en e then exists t l1 t2 g, graded (Trj x f xb fxb (m_im e) (m_sr e)) l t l1 /\ local_searches (last (mt_ls p) LS1) (Trj (t_x t) (t_f t) (t_b t) (t_bf t) (m_im e) (t_sr t)) l1 t2 g l' /\
    r' = (t_x t2, t_f t2, MExt false (t_im t2) (t_sr t2) g) /\ xb' = t_b t2 /\ fxb' = t_bf t2
  else r' = r /\ xb' = xb /\ fxb' = fxb /\ l' = l.
Inductive members_move : list (vec * num * mext) -> vec -> num -> elog -> list (vec * num * mext) -> vec -> num -> elog -> Prop :=
| mm_nil : forall xb fxb l, members_move [] xb fxb l [] xb fxb l
| mm_cons : forall r rs xb fxb l r' xb1 fxb1 l1 rs' xb2 fxb2 l2, member_moves r xb fxb l r' xb1 fxb1 l1 -> members_move rs xb1 fxb1 l1 rs' xb2 fxb2 l2 -> members_move (r :: rs) xb fxb l (r' :: rs') xb2 fxb2 l2.
Lemma w_members : forall rows xb fxb l (Q : list (vec * num * mext) * vec * num -> elog -> Prop), (forall rows' xb' fxb' l', members_move rows xb fxb l rows' xb' fxb' l' -> Q (rows', xb', fxb') l') ->
  wp (K_tr E) (mts_members F C p rows xb fxb) Q l.
Proof.
  induction rows as [|[[x f] e] rows IH]; intros xb fxb l Q HQ; cbn [mts_members]; [apply w_done; apply HQ; constructor|]. destruct (m_en e) eqn:En.
  - apply wp_bind. unfold mts_member. apply wp_bind. apply w_graded. intros t l1 H1. apply w_local_searches. intros t2 g l2 H2. cbn [fst snd]. cbv zeta. apply wp_bind. apply IH. intros rows' xb' fxb' l' H3. apply w_done. cbn [fst snd]. apply HQ.
    econstructor; [|exact H3]. unfold member_moves. rewrite En. exists t, l1, t2, g. auto.
  - apply wp_bind. apply IH. intros rows' xb' fxb' l' H3. apply w_done. cbn [fst snd]. apply HQ. econstructor; [|exact H3]. unfold member_moves. rewrite En. auto.
Qed.
(** the searches around the best solution: mts_ls1 with the bonuses 10 and 1, improve false and a tenth of the range *)
Definition polished (xb : vec) (fxb : num) (l : elog) (xb' : vec) (fxb' : num) (l' : elog) : Prop :=
  chain (fun _ b l b' l' => exists r, searched F E (flit F 10 1) (flit F 1 1) LS1 (fst b) (snd b) None (snd b) false (map (fun d => fdiv F d (flit F 10 1)) (vsub F (c_upper C) (c_lower C))) l r l' /\
    fst b' = match l_b r with Some y => y | None => l_x r end /\ snd b' = l_bf r) (seq 0 (mt_best p)) (xb, fxb) l (xb', fxb') l'.
Lemma w_polished : forall xb fxb l (Q : vec * num -> elog -> Prop), (forall xb' fxb' l', polished xb fxb l xb' fxb' l' -> Q (xb', fxb') l') -> wp (K_tr E) (mts_polish F C p xb fxb) Q l.
Proof.
  intros xb fxb l Q HQ. unfold mts_polish. eapply w_chain; [|intros [xb' fxb'] l' H; apply HQ; exact H]. intros j [x f] l1. cbn [fst snd]. apply wp_bind. apply (w_searched F E (flit F 10 1) (flit F 1 1) 0 LS1). intros r l' H. apply w_done. exists r. auto.
Qed.
End Iteration.
Theorem C127_search : forall F E b1 b2 fuel k x f b bf imp sr r wd wd', let C := e_cfg E in exec E (run_ls F C fuel k b1 b2 x f b bf imp sr) wd = (Ret r, wd') ->
  searched F E b1 b2 k x f b bf imp sr (log_of (c_opt C) (w_h wd)) r (log_of (c_opt C) (w_h wd')).
Proof. intros F E b1 b2 fuel k x f b bf imp sr r wd wd' C Ex. apply (tr_sound _ E _ (fun r l' => searched F E b1 b2 k x f b bf imp sr (log_of (c_opt C) (w_h wd)) r l') _ _ _) in Ex; [exact Ex|]. apply w_searched. auto. Qed.
Theorem C127_step : forall F E p pop fit xb fxb par pop' fit' xb' fxb' par' wd wd', let C := e_cfg E in let l := log_of (c_opt C) (w_h wd) in let l' := log_of (c_opt C) (w_h wd') in
  exec E (a_iter (mts F C p) pop fit xb fxb par) wd = (Ret (pop', fit', xb', fxb', par'), wd') ->
  exists rows' xb1 fxb1 l1, members_move F E p (combine (combine pop fit) par) xb fxb l rows' xb1 fxb1 l1 /\ polished F E p xb1 fxb1 l1 xb' fxb' l' /\
    pop' = map (fun r => fst (fst r)) rows' /\ fit' = map (fun r => snd (fst r)) rows' /\ Forall2 (fun e e' => m_im e' = m_im e /\ m_sr e' = m_sr e /\ m_gr e' = m_gr e) (map snd rows') (par' : list mext).
Proof.
  intros F E p pop fit xb fxb par pop' fit' xb' fxb' par' wd wd' C l l' Ex.
  apply (tr_sound _ E _ (fun s l' => let '(pop', fit', xb', fxb', par') := s in exists rows' xb1 fxb1 l1, members_move F E p (combine (combine pop fit) par) xb fxb l rows' xb1 fxb1 l1 /\ polished F E p xb1 fxb1 l1 xb' fxb' l' /\
    pop' = map (fun r => fst (fst r)) rows' /\ fit' = map (fun r => snd (fst r)) rows' /\ Forall2 (fun e e' => m_im e' = m_im e /\ m_sr e' = m_sr e /\ m_gr e' = m_gr e) (map snd rows') (par' : list mext)) _ _ _) in Ex; [exact Ex|]. cbn [mts a_iter]. unfold mts_iter.
  apply wp_bind. apply w_members. intros rows' xb1 fxb1 l1 H1. cbn [fst snd]. cbv zeta. apply wp_bind. apply w_polished. intros xb2 fxb2 l2 H2. apply w_done. cbn [fst snd]. exists rows', xb1, fxb1, l1. do 2 (split; [assumption|]). split; [reflexivity|]. split; [reflexivity|].
  exact (enable_flagged _ _).
Qed.

(** * C128: the halving of the population of DynNpDifferentialEvolutionMTS *)
(** nothing but the number of iterations decides whether the population is halved; member i then is the better one of i and i + n/2, the second one if they are equal *)
Theorem C128_halved : forall E pm rp (pop pop' : list (vec * num * mext)) wd wd', let C := e_cfg E in let n := length pop in exec E (h_dynnp C pm rp pop) wd = (Ret pop', wd') ->
  wd' = wd /\
  if match c_max_evals C with LInf => false | LFin m => Z.eqb (Z.of_nat (t_iters (w_ts wd)) + 1) (m / (pm * Z.of_nat n) + rp) && (3 <? n) end
  then length pop' = n / 2 /\ forall i, i < n / 2 -> exists a b, nth_error pop i = Some a /\ nth_error pop (i + n / 2) = Some b /\ nth_error pop' i = Some (if fltb (snd (fst a)) (snd (fst b)) then a else b)
  else pop' = pop.
Proof.
  intros E pm rp pop pop' wd wd' C n Ex. unfold h_dynnp in Ex. rewrite exec_bind in Ex. cbn [view exec] in Ex. destruct (c_max_evals C) as [|m]; [injection Ex as <- <-; auto|]. cbn [v_iters] in Ex. fold n in Ex.
  destruct (Z.eqb (pm * Z.of_nat n) 0); [discriminate|]. destruct (Z.eqb _ _ && (3 <? n)) eqn:B; [|injection Ex as <- <-; auto]. unfold h_halve in Ex. fold n in Ex.
  assert (G : forall k s pop' wd', exec E (mapM (fun i => let* a := nthP pop i in let* b := nthP pop (i + n / 2) in Done (if fltb (snd (fst a)) (snd (fst b)) then a else b)) (seq s k)) wd = (Ret pop', wd') ->
    wd' = wd /\ length pop' = k /\ forall i, i < k -> exists a b, nth_error pop (s + i) = Some a /\ nth_error pop (s + i + n / 2) = Some b /\ nth_error pop' i = Some (if fltb (snd (fst a)) (snd (fst b)) then a else b)).
  { clear. induction k as [|k IH]; intros s pop' wd' Ex; cbn [seq mapM] in Ex; [cbn [exec] in Ex; injection Ex as <- <-; split; [reflexivity|split; [reflexivity|intros i Hi; lia]]|].
    rewrite exec_bind in Ex. rewrite exec_bind in Ex. unfold nthP at 1 in Ex. destruct (nth_error pop s) as [a|] eqn:Ea; cbn [exec] in Ex; [|discriminate]. rewrite exec_bind in Ex. unfold nthP at 1 in Ex. destruct (nth_error pop (s + n / 2)) as [b|] eqn:Eb; cbn [exec] in Ex; [|discriminate].
    rewrite exec_bind in Ex. destruct (exec E (mapM _ (seq (S s) k)) wd) as [[rest|e] w2] eqn:X; [|discriminate]. cbn [exec] in Ex. injection Ex as <- <-. destruct (IH _ _ _ X) as (-> & L & G). split; [reflexivity|]. split; [cbn; congruence|].
    intros [|i] Hi; [rewrite Nat.add_0_r; exists a, b; auto|]. destruct (G i ltac:(lia)) as (a' & b' & G1 & G2 & G3). exists a', b'. rewrite Nat.add_succ_r. auto. }
  destruct (G _ _ _ _ Ex) as (-> & G2 & G3). split; [reflexivity|]. split; [exact G2|]. intros i Hi. exact (G3 i Hi).
Qed.

(** ** Examples *)
Module ExMts2.
  Import ExMts.
  (** a run long enough for the searches around the best solution *)
  Definition C5 := box 2 (-2) 2 (LFin 22).
  Example run5 : trace (exenv C5 lin) (mts b64ops C5 p2) 9 =
    (Ret ([(-131072); (-122880)], (-376832)), [[8192; 40960]; [24576; 24576]; [40960; 8192]; [(-122880);
    40960]; [(-122880); (-90112)]; [(-122880); (-90112)]; [(-24576); (-90112)]; [(-131072); (-90112)];
    [(-122880); (-122880)]; [(-122880); (-122880)]; [(-106496); 24576]; [(-106496); (-106496)]; [(-106496);
    (-8192)]; [(-106496); (-131072)]; [(-106496); (-131072)]; [(-106496); (-131072)]; [(-106496); (-32768)];
    [(-106496); (-131072)]; [(-90112); 8192]; [(-90112); (-122880)]; [(-131072); (-122880)]; [(-122880);
    (-122880)]])%Z.
  Proof. vm_compute. reflexivity. Qed.
  (** searches that return, from (1, 1) with value 3, the best being (0, 0) *)
  Example searches : map (fun k => match exec E1 (run_ls b64ops C1 9 k (N' 10) (N' 1) [N' 1; N' 1] (N' 3) (Some [N' 0; N' 0]) (N' 0) false [N' 2; N' 2]) (World (task_init C1) [] 0) with (Ret _, _) => true | _ => false end) [LS1; LS1v1; LS2; LS3; LS3v1] = repeat true 5.
  Proof. vm_compute. reflexivity. Qed.
  (** an iteration that returns *)
  Example step5 : match state_after (exenv C5 lin) (mts b64ops C5 p2) 1 with Some (s, w) => length (w_h w) | None => 0 end = 22.
  Proof. vm_compute. reflexivity. Qed.
  (** 4 members, halved in the third iteration: 24/(2*4) + 0 *)
  Definition C6 := box 1 (-2) 2 (LFin 24).
  Definition e6 := MExt true true [N' 1] f0.
  Definition pop6 : list (vec * num * mext) := [([N' 1], N' 1, e6); ([N' 0], N' 0, e6); ([N' 2], N' 2, e6); ([N' (-1)], N' (-1), e6)].
  Example half6 : fst (exec (exenv C6 lin) (h_dynnp C6 2 0 pop6) (World (TS 20 2 PInf [] [] []) [] 0)) = Ret [([N' 1], N' 1, e6); ([N' (-1)], N' (-1), e6)].
  Proof. vm_compute. reflexivity. Qed.
End ExMts2.

Print Assumptions C127_search.
Print Assumptions C127_step.
Print Assumptions C128_halved.
