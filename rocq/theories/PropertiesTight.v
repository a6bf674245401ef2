(** The seeking mode of CatSwarmOptimization exactly, with the weights of the candidates and the cat drawn (C133), and the luciferin and
    decision ranges of the glowworm swarms (C134). *)
From Coq Require Import ZArith Lia Bool List.
From Verif Require Import Num Task TaskSpec TaskProofs Prog Wp GetBest Run RunSpec RunProofs RunProofs2
  AlgoLib Fops AlgTac StepSpec StepLib Indiv IndivLib Repair Reach AlgBasic2 AlgBasic2Proofs B64 ExLib ExLib2
  PropertiesBasic2 AlgBasic3 AlgBasic3Proofs PropertiesBasic3.
Import ListNotations.
Open Scope nat_scope.

(** * C133 *)
(** copies of a cat, one after the other *)
Inductive copies (E : env) (F : fops) (p : cso_par) (x : vec) : list (vec * num) -> elog -> elog -> Prop :=
| cp_nil : forall l, copies E F p x [] l l
| cp_snoc : forall cs y f l l1 l2, copies E F p x cs l l1 -> copy_eq E F p x y f l1 l2 -> copies E F p x (cs ++ [(y, f)]) l l2.
(** the weight of a candidate of value [a] among candidates of values [fs] (cso.py:203-211) *)
Definition weight (F : fops) (fs : list num) (worst best a : num) : num :=
  if forallb (fun b => feqb b (hd NaN fs)) fs then flit F 1 1
  else match worst with PInf | NInf => worst | _ => fdiv F (fabs F (fsub F a worst)) (fsub F worst best) end.
(** the member of [xs] where the running sums of [ws] first reach the share [r] of the total; the first one if they never do *)
Definition drawn_by {A} (F : fops) (r : num) (ws : list num) (xs : list A) (a : A) : Prop :=
  exists i c, let cs := cumsum F ws in let t := fmul F r (last cs NaN) in nth_error xs i = Some a /\ nth_error cs i = Some c /\
    ((fleb t c = true /\ forall j b, j < i -> nth_error cs j = Some b -> fleb t b = false) \/ (i = 0 /\ forall b, In b cs -> fleb t b = false)).
Lemma weights_eq : forall F fs worst best, cso_weights F fs worst best = map (weight F fs worst best) fs.
Proof.
  intros F [|f fs] worst best; auto. unfold cso_weights.
  assert (N : forall xs, existsb (fun a => negb (feqb a f)) xs = negb (forallb (fun b => feqb b f) xs)).
  { induction xs as [|x xs IH]; simpl; auto. rewrite IH. destruct (feqb x f); auto. }
  rewrite N. assert (W : forall a, weight F (f :: fs) worst best a = if forallb (fun b => feqb b f) (f :: fs) then flit F 1 1
    else match worst with PInf | NInf => worst | _ => fdiv F (fabs F (fsub F a worst)) (fsub F worst best) end) by reflexivity.
  destruct (forallb (fun b => feqb b f) (f :: fs)); cbn [negb].
  - apply map_ext. intros a. rewrite W. reflexivity.
  - destruct worst; apply map_ext; intros a; rewrite W; reflexivity.
Qed.
Theorem C133_seek : forall F E p x f pop fit fxb y g pop' fit' wd wd', let C := e_cfg E in length x = c_dim C ->
  exec E (cso_seek F C p x f pop fit fxb) wd = (Ret (y, g, pop', fit'), wd') ->
  exists cs r iw ib worst best, copies E F p x cs (log_of (c_opt C) (w_h wd)) (log_of (c_opt C) (w_h wd')) /\
    length cs = (if ct_spc p then ct_smp p - 1 else ct_smp p) /\ in_unit r /\
    let cand := if ct_spc p then cs ++ [(x, f)] else cs in let fs := map snd cand in
    argmax fs = Some iw /\ nth_error fs iw = Some worst /\ argmin fs = Some ib /\ nth_error fs ib = Some best /\
    drawn_by F r (map (weight F fs worst best) fs) cand (y, g) /\
    (if fltb best fxb
     then exists k j z, k < ct_n p /\ nth_error cand j = Some (z, best) /\ (forall i b, i < j -> nth_error fs i = Some b -> feqb b best = false) /\
                        row_set pop pop' k z /\ row_set fit fit' k best
     else pop' = pop /\ fit' = fit).
Proof.
  intros F E p x f pop fit fxb y g pop' fit' wd wd' C Lx Ex. set (l := log_of (c_opt C) (w_h wd)).
  pose (S0 := fun (a : vec * num * list vec * list num) (l' : elog) => let '(y, g, pop', fit') := a in
    exists cs r iw ib worst best, copies E F p x cs l l' /\
    length cs = (if ct_spc p then ct_smp p - 1 else ct_smp p) /\ in_unit r /\
    let cand := if ct_spc p then cs ++ [(x, f)] else cs in let fs := map snd cand in
    argmax fs = Some iw /\ nth_error fs iw = Some worst /\ argmin fs = Some ib /\ nth_error fs ib = Some best /\
    drawn_by F r (map (weight F fs worst best) fs) cand (y, g) /\
    (if fltb best fxb
     then exists k j z, k < ct_n p /\ nth_error cand j = Some (z, best) /\ (forall i b, i < j -> nth_error fs i = Some b -> feqb b best = false) /\
                        row_set pop pop' k z /\ row_set fit fit' k best
     else pop' = pop /\ fit' = fit)).
  apply (tr_sound _ E _ S0 _ _ _) in Ex; [exact Ex|]. clear Ex. fold C l. unfold cso_seek. apply wp_bind.
  eapply wp_conseq0.
  { apply wp_repeatM with (I := fun (cs : list (vec * num)) (l' : elog) => copies E F p x cs l l'); [constructor|].
    intros bs l' _ Hb. apply w_copy_tr; auto. intros z h l1 Hz. econstructor; eauto. }
  intros cs l' (Hcs & Lcs). cbv zeta. set (cand := if ct_spc p then cs ++ [(x, f)] else cs). set (fs := map snd cand).
  destruct (argmax fs) as [iw|] eqn:Eiw; [|exact I]. destruct (argmin fs) as [ib|] eqn:Eib; [|exact I].
  apply wp_bind. apply w_nthP_tr. intros wo Hwo. apply wp_bind. apply w_nthP_tr. intros be Hbe. apply wp_bind.
  apply wp_conseq0 with (Q := fun (a : list vec * list num) (l'' : elog) => let '(pop', fit') := a in l'' = l' /\ if fltb be fxb
     then exists k j z, k < ct_n p /\ nth_error cand j = Some (z, be) /\ (forall i b, i < j -> nth_error fs i = Some b -> feqb b be = false) /\
                        row_set pop pop' k z /\ row_set fit fit' k be
     else pop' = pop /\ fit' = fit).
  - destruct (fltb be fxb) eqn:Q; [|apply w_done; auto]. apply wp_bind. apply w_integers_tr. intros k Hk.
    destruct (first_true _) as [j|] eqn:Ej; [|exact I]. assert (B := first_true_before _ _ Ej). apply first_true_lt in Ej. rewrite nth_error_map in Ej.
    destruct (nth_error fs j) as [b|] eqn:Eb; [|discriminate]. injection Ej as Ej. apply feqb_eq in Ej. subst b.
    apply wp_bind. apply w_nthP_tr. intros z Ez. apply wp_bind. apply w_setP_tr. intros H1. apply wp_bind. apply w_setP_tr. intros H2. apply w_done. split; auto.
    exists k, j, z. split; auto. unfold fs in Eb. rewrite nth_error_map in Ez, Eb. destruct (nth_error cand j) as [[z' b']|] eqn:Ec; [|discriminate].
    injection Ez as <-. injection Eb as <-. split; auto. split; auto. intros i b Hi Hb. specialize (B i Hi). rewrite nth_error_map, Hb in B. injection B as B. exact B.
  - intros [pop1 fit1] l2 [-> H]. apply wp_bind. unfold cso_select. rewrite weights_eq. set (ws := map (weight F fs wo be) fs).
    assert (Lc := cumsum_len F ws). assert (Lw : length ws = length cand) by (unfold ws, fs; rewrite !map_length; auto). cbv zeta. apply wp_bind. apply w_random_u. intros r Ur.
    assert (HS : forall i z c, nth_error cand i = Some z -> nth_error (cumsum F ws) i = Some c ->
      ((fleb (fmul F r (last (cumsum F ws) NaN)) c = true /\ forall j b, j < i -> nth_error (cumsum F ws) j = Some b -> fleb (fmul F r (last (cumsum F ws) NaN)) b = false) \/
       (i = 0 /\ forall b, In b (cumsum F ws) -> fleb (fmul F r (last (cumsum F ws) NaN)) b = false)) -> S0 (fst z, snd z, pop1, fit1) l').
    { intros i [z b] c Hz Hc Hd. unfold S0. cbn [fst snd]. exists cs, r, iw, ib, wo, be. split; auto. split; auto. split; auto. cbv zeta. fold cand fs. do 4 (split; [assumption|]). split; [|exact H].
      exists i, c. cbv zeta. fold ws. auto. }
    clearbody S0. revert HS Lc. generalize (cumsum F ws). intros sums HS Lc. destruct sums as [|c0 sums0]; [exact I|]. apply w_done.
    set (sums := c0 :: sums0) in *. assert (E0 : nth_error sums 0 = Some c0) by reflexivity. clearbody sums.
    apply wp_bind. apply w_nthP_tr. intros zb Hzb. apply w_done.
    destruct (first_true (map (fun c => fleb (fmul F r (last sums NaN)) c) sums)) as [k|] eqn:Ek.
    + assert (B := first_true_before _ _ Ek). apply first_true_lt in Ek. rewrite nth_error_map in Ek. destruct (nth_error sums k) as [c|] eqn:Ec; [|discriminate]. injection Ek as Ek.
      apply (HS k zb c); auto. left. split; auto. intros j b Hj Hb. specialize (B j Hj). rewrite nth_error_map, Hb in B. injection B as B. exact B.
    + apply first_true_none in Ek. apply (HS 0 zb c0); auto. right. split; auto.
      intros b Hb. destruct (fleb (fmul F r (last sums NaN)) b) eqn:Q; auto. exfalso. apply Ek. apply in_map_iff. exists b. auto.
Qed.

(** * C134 *)
(** the glowworms i looks at: within its range and with no more luciferin *)
Definition looked_at (p : gso_par) (pop : list vec) (luc : list num) (i : nat) (r : num) : list nat :=
  filter (fun j => negb (j =? i) && (fleb (gw_dist p (nth i pop []) (nth j pop [])) r && fleb (nth j luc NaN) (nth i luc NaN))) (seq 0 (length pop)).
Lemma n_true_looked : forall p i r pop luc, n_true (gso_neighbors p i r pop luc) = length (looked_at p pop luc i r).
Proof.
  intros p i r pop luc. unfold n_true, gso_neighbors, looked_at. set (x := nth i pop []). clearbody x. set (u := nth i luc NaN). clearbody u.
  assert (G : forall ys k, (forall j, nth_error ys j = nth_error pop (k + j)) ->
    length (filter (fun b => b) (map2 (fun j y => negb (i =? j) && fleb (gw_dist p x y) r && fleb (nth j luc NaN) u) (seq k (length ys)) ys))
    = length (filter (fun j => negb (j =? i) && (fleb (gw_dist p x (nth j pop [])) r && fleb (nth j luc NaN) u)) (seq k (length ys)))).
  { induction ys as [|y ys IH]; intros k H; auto. cbn [length seq map2 filter].
    assert (Ey : nth k pop [] = y) by (apply nth_error_nth; rewrite <- (Nat.add_0_r k), <- H; reflexivity). rewrite Ey, <- andb_assoc, (Nat.eqb_sym i k).
    assert (IH' := IH (S k)). destruct (negb (k =? i) && _); cbn [length]; rewrite IH'; auto; intros j; rewrite Nat.add_succ_comm, <- (H (S j)); reflexivity. }
  apply (G pop 0). reflexivity.
Qed.
(** the decision range before it is cut to [0, sensing range], for [m] glowworms looked at (gso.py:188-190, 305-307, 375-377, 445-447) *)
Definition next_range (F : fops) (pi : num) (p : gso_par) (range sensing m : num) : num :=
  match gw_kind p with
  | GSO0 => fadd F range (fmul F (gw_beta p) (fsub F (gw_nt p) m))
  | GSO1 => fdiv F sensing (fadd F (flit F 1 1) (fmul F (gw_beta p) (fdiv F m (fmul F pi (fpow F sensing (flit F 2 1))))))
  | GSO2 alpha => fadd F alpha (fdiv F (fsub F sensing alpha) (fadd F (flit F 1 1) (fmul F (gw_beta p) m)))
  | GSO3 beta1 => if fltb m (gw_nt p) then fadd F range (fmul F (gw_beta p) m) else fmul F (fneg beta1) m
  end.
Lemma map2_min_length : forall A B C (f : A -> B -> C) x y, length (map2 f x y) = Nat.min (length x) (length y).
Proof. induction x as [|a x IH]; intros [|b y]; simpl; auto. Qed.
(** the luciferin decays by the factor 1 - rho and grows by gamma times the value; version 1 replaces a NaN and negative numbers by 0 *)
Definition next_luciferin (F : fops) (p : gso_par) (a f v : num) : Prop :=
  let b := fadd F (fmul F (fsub F (flit F 1 1) (gw_rho p)) a) (fmul F (gw_gamma p) f) in
  match gw_kind p with GSO1 => (b <> NaN /\ fltb (flit F 0 1) b = true /\ v = b) \/ ((b = NaN \/ fltb (flit F 0 1) b = false) /\ v = flit F 0 1) | _ => v = b end.
Lemma luciferin_eq : forall F p a f, next_luciferin F p a f (gso_luciferin F p a f).
Proof.
  intros F p a f. unfold next_luciferin, gso_luciferin. cbv zeta. set (b := fadd F _ _). clearbody b. destruct (gw_kind p); auto. unfold fmax0, fmaxb.
  destruct b as [| |z|]; [right; auto| | |]; (destruct (fltb (flit F 0 1) _) eqn:Q; [left; split; [discriminate|auto]|right; auto]).
Qed.
Theorem C134_state : forall F E pi p pop fit xb fxb st pop' fit' xb' fxb' st' wd wd', let C := e_cfg E in
  exec E (a_iter (gso F C pi p) pop fit xb fxb st) wd = (Ret (pop', fit', xb', fxb', st'), wd') ->
  length (gl_luc st') = Nat.min (length (gl_luc st)) (length fit) /\
  (forall i a f v, nth_error (gl_luc st) i = Some a -> nth_error fit i = Some f -> nth_error (gl_luc st') i = Some v -> next_luciferin F p a f v) /\
  (forall i r v, i < gw_n p -> nth_error (gl_ranges st) i = Some r -> nth_error (gl_ranges st') i = Some v ->
     let w := next_range F pi p r (gl_sensing st) (fnat F (length (looked_at p pop (gl_luc st') i r))) in
     let u := if fltb w (gl_sensing st) then w else gl_sensing st in v = if fltb (flit F 0 1) u then u else flit F 0 1) /\
  gl_sensing st' = gl_sensing st.
Proof.
  intros F E pi p pop fit xb fxb st pop' fit' xb' fxb' st' wd wd' C Ex. cbn [a_iter gso] in Ex. unfold gso_iter in Ex. cbv zeta in Ex.
  set (luc := map2 (gso_luciferin F p) (gl_luc st) fit) in *. rewrite exec_bind in Ex. destruct (exec E (mapM _ (seq 0 (gw_n p))) wd) as [[js|e] w1]; [|discriminate].
  rewrite exec_bind in Ex. destruct (exec E (mapM _ _) w1) as [[pop1|e] w2]; [|discriminate]. rewrite exec_bind in Ex. destruct (exec E (eval_all pop1) w2) as [[fit1|e] w3]; [|discriminate].
  rewrite exec_bind in Ex. destruct (exec E (lift _) w3) as [[[x1 f1]|e] w4]; [|discriminate]. cbn [exec] in Ex. injection Ex as _ _ _ _ <- _. cbn [gl_luc gl_ranges gl_sensing].
  split; [apply map2_min_length|]. split; [|split; auto].
  - intros i a f v Ha Hf Hv. unfold luc in Hv. clear luc. revert i fit Ha Hf Hv. induction (gl_luc st) as [|b bs IH]; intros [|i] [|g gs] Ha Hf Hv; cbn [nth_error map2] in *; try discriminate.
    + injection Ha as ->. injection Hf as ->. injection Hv as <-. apply luciferin_eq.
    + eapply IH; eauto.
  - intros i r v Hi Hr Hv. rewrite nth_error_map, (nth_error_nth' _ 0) in Hv by (rewrite seq_length; auto). rewrite seq_nth in Hv by auto. cbn [option_map plus] in Hv. injection Hv as <-.
    rewrite (nth_error_nth _ _ _ Hr).
    assert (En : nth i (map (fun i => gso_neighbors p i (nth i (gl_ranges st) NaN) pop luc) (seq 0 (gw_n p))) [] = gso_neighbors p i r pop luc).
    { apply nth_error_nth. rewrite nth_error_map, (nth_error_nth' _ 0) by (rewrite seq_length; auto). rewrite seq_nth by auto. cbn [option_map plus]. rewrite (nth_error_nth _ _ _ Hr). reflexivity. }
    rewrite En. unfold gso_range. rewrite n_true_looked. fold luc. unfold fmaxb, fminb, next_range. reflexivity.
Qed.

Module ExTight.
  Definition fp4 := CSOPar 3 (q 3 8) (q 2 1) 4 true (q 7 8) (q 1 2) (q 1 4).
  Definition seek k := ExBasic2.shown (fun r => let '(y, g, pop', fit') := r in (ExBasic2.sv y, scl g, map ExBasic2.sv pop', ExBasic2.sv fit'))
    (exec ExBasic2.E9 (cso_seek fxx ExBasic2.C9 fp4 [q 1 2; q 1 4] (q 3 4) (firstn 3 ExBasic2.pop) (firstn 3 ExBasic2.fit) (q 2 1)) (World (task_init ExBasic2.C9) [] k)).
  (** hypotheses of C133_seek: candidates of different values *)
  Example seek_shown : map seek [0; 1; 2; 3] =
    [Ret ([32768; 8192], 49152, [[32768; 8192]; [65536; 0]; [0; 0]], [49152; 49152; 8192]); Ret ([32768;
    16384], 49152, [[32768; 16384]; [16384; 16384]; [0; 0]], [65536; 49152; 8192]); Ret ([32768; 16384],
    49152, [[32768; 16384]; [65536; 0]; [16384; 16384]], [65536; 49152; 49152]); Ret ([32768; 8192], 49152,
    [[32768; 8192]; [65536; 0]; [0; 0]], [49152; 49152; 8192])]%Z.
  Proof. vm_compute. reflexivity. Qed.
  Example weights_shown : map scl (map (weight fxx [q 1 1; q 1 2; q 3 4] (q 1 1) (q 1 2)) [q 1 1; q 1 2; q 3 4]) =
    [0; 65536; 32768]%Z.
  Proof. vm_compute. reflexivity. Qed.
  (** hypotheses of C134_state: the four versions *)
  Definition st := GSOSt [q 5 1; q (-4) 1; q 3 1] [q 1 1; q 1 2; q 2 1] (q 3 2).
  Definition light k := ExBasic3.shown (fun r => let '(_, _, _, _, st') := r in (ExBasic3.sv (gl_luc st'), ExBasic3.sv (gl_ranges st')))
    (exec ExBasic3.E9 (a_iter (gso fxx ExBasic3.C9 (q 3 1) (ExBasic3.gp k)) ExBasic3.pop ExBasic3.fit [q 0 1; q 1 8] (q 1 8) st) ExBasic3.w0).
  Example light_shown : map light [GSO0; GSO1; GSO2 (q 1 4); GSO3 (q 1 2)] =
    [Ret ([235520; (-122880); 128000], [90112; 73728; 98304]); Ret ([235520; 0; 128000], [93835; 98304;
    96017]); Ret ([235520; (-122880); 128000], [81920; 98304; 89201]); Ret ([235520; (-122880); 128000],
    [81920; 32768; 98304])]%Z.
  Proof. vm_compute. reflexivity. Qed.
End ExTight.
