(** Proofs about AlgLoa.v: what one iteration does, and what it leaves alone. *)
From Coq Require Import ZArith Lia Bool List Permutation.
From Verif Require Import Num Task TaskSpec TaskProofs TaskProofs2 Prog Wp GetBest Run RunSpec RunProofs RunProofs2
  AlgoLib Fops AlgTac StepSpec StepLib Indiv IndivLib AlgPSO AlgDE AlgBasic AlgBasic2 AlgBasic2Proofs AlgBasic3 AlgSwarm PopLib Repair AlgMts AlgShadeProofs AlgKhProofs AlgAsoProofs AlgCro AlgCroProofs AlgLoa.
Import ListNotations.

(** ** Loops *)
(** what a loop does, from what its body does *)
Inductive folds {A S : Type} (R : A -> S -> elog -> S -> elog -> Prop) : list A -> S -> elog -> S -> elog -> Prop :=
| folds_nil : forall s l, folds R [] s l s l
| folds_cons : forall a xs s l s1 l1 s2 l2, R a s l s1 l1 -> folds R xs s1 l1 s2 l2 -> folds R (a :: xs) s l s2 l2.
Lemma w_folds : forall A S K (f : S -> A -> prog S) (R : A -> S -> elog -> S -> elog -> Prop) (I : S -> elog -> Prop) xs s l (Q : S -> elog -> Prop),
  I s l -> (forall a s l, In a xs -> I s l -> wp K (f s a) (fun s' l' => R a s l s' l' /\ I s' l') l) ->
  (forall s' l', folds R xs s l s' l' -> I s' l' -> Q s' l') -> wp K (foldM f xs s) Q l.
Proof.
  intros A S K f R I xs. induction xs as [|a xs IH]; intros s l Q Hs Hf HQ; cbn [foldM].
  - apply w_done. apply HQ; auto. constructor.
  - apply wp_bind. eapply wp_conseq0; [apply Hf; auto; left; auto|]. intros s1 l1 [H1 H2]. apply IH; auto.
    + intros b s2 l2 Hb H3. apply Hf; auto. right; auto.
    + intros s' l' H3 H4. apply HQ; auto. econstructor; eauto.
Qed.
Lemma folds_inv : forall A S (R : A -> S -> elog -> S -> elog -> Prop) (I : S -> elog -> Prop) xs s l s' l', folds R xs s l s' l' ->
  (forall a s l s' l', In a xs -> R a s l s' l' -> I s l -> I s' l') -> I s l -> I s' l'.
Proof. intros A S R I xs s l s' l' H. induction H as [|a xs s l s1 l1 s2 l2 H1 H2 IH]; intros Hi Hs; auto. apply IH; [intros b ? ? ? ? Hb; apply Hi; right; auto|]. eapply Hi; eauto. left; auto. Qed.
Lemma folds_impl : forall A S (R R' : A -> S -> elog -> S -> elog -> Prop) xs s l s' l', folds R xs s l s' l' -> (forall a s l s' l', In a xs -> R a s l s' l' -> R' a s l s' l') -> folds R' xs s l s' l'.
Proof. intros A S R R' xs s l s' l' H. induction H; intros Hi; [constructor|]. econstructor; [apply Hi; [left; auto|eauto]|]. apply IHfolds. intros; apply Hi; auto. right; auto. Qed.

(** ** Lists *)
Lemma firstn_in : forall A n (xs : list A) a, In a (firstn n xs) -> In a xs.
Proof. intros A n xs a H. rewrite <- (firstn_skipn n xs). apply in_or_app; auto. Qed.
Lemma skipn_in : forall A n (xs : list A) a, In a (skipn n xs) -> In a xs.
Proof. intros A n xs a H. rewrite <- (firstn_skipn n xs). apply in_or_app; auto. Qed.
Lemma slice_in : forall A a b (xs : list A) x, In x (slice a b xs) -> In x xs.
Proof. intros A a b xs x H. apply firstn_in in H. apply skipn_in in H. auto. Qed.
Lemma from_z_in : forall A a (xs : list A) x, In x (from_z a xs) -> In x xs.
Proof. intros A a xs x H. apply skipn_in in H. auto. Qed.
Lemma cut_in : forall A sizes (xs : list A) index ys x, In ys (cut index sizes xs) -> In x ys -> In x xs.
Proof. intros A. induction sizes as [|s r IH]; intros xs index ys x H Hx; [destruct H|]. destruct H as [<-|H]; [eapply slice_in; eauto|eapply IH; eauto]. Qed.
Lemma prides_in : forall rows pop pride i, In pride (prides rows pop) -> In i pride -> In i pop.
Proof. intros. eapply cut_in; eauto. Qed.
Lemma males_in : forall h ids i, In i (males h ids) -> In i ids.
Proof. intros h ids i H. apply filter_In in H. apply H. Qed.
Lemma females_in : forall h ids i, In i (females h ids) -> In i ids.
Proof. intros h ids i H. apply filter_In in H. apply H. Qed.
Lemma sort_desc_perm : forall A key (xs : list A), Permutation xs (sort_desc key xs).
Proof. intros A key xs. unfold sort_desc. eapply Permutation_trans; [apply Permutation_rev|]. eapply Permutation_trans; [apply sort_on_perm|]. apply Permutation_rev. Qed.
Lemma at_upd_same : forall h i a, i < length h -> at_ (upd h i a) i = a.
Proof. intros h i a H. apply nth_error_nth. apply nth_upd_same; auto. Qed.
Lemma at_upd_other : forall h i j a, i <> j -> at_ (upd h i a) j = at_ h j.
Proof.
  intros h i j a H. unfold at_. destruct (Compare_dec.le_lt_dec (length h) j) as [L|L]; [rewrite !nth_overflow by (rewrite ?upd_length; auto); auto|].
  apply nth_error_nth. rewrite nth_upd_other by auto. apply nth_error_nth'. auto.
Qed.
Lemma at_app1 : forall h h' i, i < length h -> at_ (h ++ h') i = at_ h i.
Proof. intros. apply app_nth1; auto. Qed.
Lemma map_nth_seq : forall A (xs : list A) d, map (fun k => nth k xs d) (seq 0 (length xs)) = xs.
Proof.
  intros A xs d. assert (G : forall ys n, (forall j, j < length ys -> nth (n + j) xs d = nth j ys d) -> map (fun k => nth k xs d) (seq n (length ys)) = ys).
  { induction ys as [|y ys IH]; intros n H; [reflexivity|]. cbn [length seq map]. f_equal.
    - rewrite <- (Nat.add_0_r n). rewrite H by (cbn; lia). reflexivity.
    - apply IH. intros j Hj. replace (S n + j) with (n + S j) by lia. rewrite H by (cbn; lia). reflexivity. }
  apply G. auto.
Qed.
Lemma w_shuffled : forall A K (xs : list A) (Q : list A -> elog -> Prop) l, (forall ys, Permutation xs ys -> Q ys l) -> wp K (shuffled xs) Q l.
Proof.
  intros A K xs Q l HQ. unfold shuffled. apply wp_bind. apply w_permutation. intros rs L ND Hr. destruct xs as [|x0 xs0]; [destruct rs; [|discriminate]; apply w_done; apply HQ; constructor|].
  remember (x0 :: xs0) as xs. apply (w_mapM_rel _ _ _ (fun k y => nth k xs x0 = y)).
  - intros k Q' Hk HQ'. apply w_nthP; [apply Hr; auto|]. intros a Ea. apply HQ'. apply nth_error_nth; auto.
  - intros ys H. apply HQ. assert (G : ys = map (fun k => nth k xs x0) rs) by (clear - H; induction H; cbn [map]; congruence). subst ys.
    assert (P : Permutation (seq 0 (length xs)) rs).
    { apply NoDup_Permutation_bis; [apply seq_NoDup|rewrite seq_length; lia|]. intros k Hk. apply in_seq in Hk.
      assert (G := NoDup_length_incl (l := rs) (l' := seq 0 (length xs)) ND). apply G; [rewrite seq_length; lia| |apply in_seq; lia]. intros j Hj. apply in_seq. specialize (Hr j Hj). lia. }
    eapply Permutation_trans; [|apply Permutation_map; exact P]. rewrite <- (map_nth_seq A xs x0) at 1. apply Permutation_refl.
Qed.

Lemma F2_impl : forall A B (R S : A -> B -> Prop) xs ys, (forall a b, R a b -> S a b) -> Forall2 R xs ys -> Forall2 S xs ys.
Proof. intros A B R S xs ys H G. induction G; constructor; auto. Qed.
Lemma nd_app : forall A (a b : list A), NoDup (a ++ b) <-> NoDup a /\ NoDup b /\ forall x, In x a -> In x b -> False.
Proof.
  intros A a b. induction a as [|x a IH]; cbn [app].
  - split; [intros H; split; [constructor|]; split; auto|intros (_ & H & _); auto].
  - split.
    + intros H. inversion H as [|? ? N1 N2]; subst. apply IH in N2. destruct N2 as (G1 & G2 & G3). split; [constructor; auto; intros Q; apply N1; apply in_or_app; auto|]. split; auto.
      intros y [<-|Hy] Hb; [apply N1; apply in_or_app; auto|eauto].
    + intros (G1 & G2 & G3). inversion G1 as [|? ? N1 N2]; subst. constructor; [intros Q; apply in_app_or in Q; destruct Q as [Q|Q]; [auto|apply (G3 x); auto; left; auto]|].
      apply IH. split; auto. split; auto. intros y Hy. apply G3. right; auto.
Qed.
Lemma filter_le : forall A f (xs : list A), length (filter f xs) <= length xs.
Proof. induction xs as [|x xs IH]; cbn [filter]; auto. destruct (f x); cbn [length]; lia. Qed.
Lemma vadd_length : forall F x y n, length x = n -> length y = n -> length (vadd F x y) = n.
Proof. intros. apply map2_length; auto. Qed.
Lemma vsub_length : forall F x y n, length x = n -> length y = n -> length (vsub F x y) = n.
Proof. intros. apply map2_length; auto. Qed.
Lemma vscale_length : forall F c x n, length x = n -> length (vscale F c x) = n.
Proof. intros. unfold vscale. rewrite map_length. auto. Qed.

(** ** What the phases do *)
Section Rel.
Variables (F : fops) (C : cfg) (p : loa_par) (pi : num).
(** repairs and evaluations *)
Variable RP : vec -> vec -> Prop.
Variable EV : vec -> num -> elog -> elog -> Prop.
Let d := c_dim C.
(** a moves to the repair of z, which is evaluated *)
Definition moves (z : vec) (a : lion) (l : elog) (b : lion) (l' : elog) : Prop :=
  exists y f, RP z y /\ EV y f l l' /\
    b = {| l_x := l_x a; l_f := l_f a; l_male := l_male a; l_pride := l_pride a; l_group := l_group a; l_cx := y; l_cf := f; l_prev := l_prev a; l_imp := l_imp a |}.
(** the best position of a lion follows a better current one *)
Definition follows (a b : lion) : Prop :=
  b = {| l_x := if fltb (l_cf a) (l_f a) then l_cx a else l_x a; l_f := if fltb (l_cf a) (l_f a) then l_cf a else l_f a;
         l_male := l_male a; l_pride := l_pride a; l_group := l_group a; l_cx := l_cx a; l_cf := l_cf a; l_prev := l_prev a; l_imp := l_imp a |}.
Definition with_group (g : nat) (a : lion) : lion :=
  {| l_x := l_x a; l_f := l_f a; l_male := l_male a; l_pride := l_pride a; l_group := g; l_cx := l_cx a; l_cf := l_cf a; l_prev := l_prev a; l_imp := l_imp a |}.
Definition with_pride (k : Z) (a : lion) : lion :=
  {| l_x := l_x a; l_f := l_f a; l_male := l_male a; l_pride := k; l_group := l_group a; l_cx := l_cx a; l_cf := l_cf a; l_prev := l_prev a; l_imp := l_imp a |}.
(** a number between two others *)
Definition mid (lo hi c : num) : Prop := fleb lo c = true /\ fleb c hi = true.

(** hunting: a female draws a group, whose value grows by hers; members of the groups 1 to 3 are the hunters *)
Definition grouped (i : nat) (s : list lion * vec * list num * list nat) (l : elog) (s' : list lion * vec * list num * list nat) (l' : elog) : Prop :=
  let '(h, prey, gf, hs) := s in let '(h', prey', gf', hs') := s' in l' = l /\
  (l_male (at_ h i) = true /\ h' = h /\ gf' = gf \/
   l_male (at_ h i) = false /\ exists g, g < 4 /\ h' = upd h i (with_group g (at_ h i)) /\ gf' = upd gf g (fadd F (nth g gf NaN) (l_cf (at_ h i)))) /\
  (l_group (at_ h' i) = 0 /\ prey' = prey /\ hs' = hs \/ l_group (at_ h' i) <> 0 /\ prey' = vadd F prey (l_cx (at_ h' i)) /\ hs' = hs ++ [i]).
(** the prey starts in the middle of the hunters *)
Definition prey_of (sum : vec) (hs : list nat) (q : vec) : Prop := RP (if (length hs =? 0) then sum else map (fun a => fdiv F a (fnat F (length hs))) sum) q.
(** a hunter of the two outer groups goes to somewhere between the prey and the point opposite *)
Definition opposed (prey cx z : vec) : Prop :=
  comps d z (fun k c => let q := nth k prey NaN in let o := fsub F (fmul F (flit F 2 1) q) (nth k cx NaN) in
    if fltb o q then mid o q c else if fltb q o then mid q o c else c = nth k cx NaN).
(** one of the middle group to somewhere between itself and the prey *)
Definition centred (prey cx z : vec) : Prop :=
  comps d z (fun k c => let q := nth k prey NaN in let o := nth k cx NaN in if fltb o q then mid o q c else if fltb q o then mid q o c else c = o).
Definition hunts (right left center : nat) (i : nat) (s : list lion * vec) (l : elog) (s' : list lion * vec) (l' : elog) : Prop :=
  let (h, prey) := s in let (h', prey') := s' in let a := at_ h i in
  exists b b', (if (l_group a =? left) || (l_group a =? right) then exists z, opposed prey (l_cx a) z /\ moves z a l b l'
                else if l_group a =? center then exists z, centred prey (l_cx a) z /\ moves z a l b l' else b = a /\ l' = l) /\
    follows b b' /\ h' = upd h i b' /\
    if fltb (l_cf b) (l_f b) then exists r, in_unit r /\
      RP (vadd F prey (vscale F (fmul F r (fsub F (flit F 1 1) (fdiv F (l_cf b) (l_prev b)))) (vsub F prey (l_cx b)))) prey'
    else prey' = prey.
Definition hunted (pride : list nat) (h : list lion) (l : elog) (h' : list lion) (l' : elog) : Prop :=
  exists h1 sum gf hs prey prey', folds grouped pride (h, repeat f0 d, repeat f0 4, []) l (h1, sum, gf, hs) l /\ prey_of sum hs prey /\
    folds (hunts (1 + nth 0 (argsort (tl gf)) 0) (1 + nth 1 (argsort (tl gf)) 0) (1 + nth 2 (argsort (tl gf)) 0)) hs (h1, prey) l (h', prey') l'.

(** the safe place: the best position of the winner of a tournament; the other females move *)
Definition wins (h : list lion) (pride : list nat) (w : nat) : Prop :=
  pride = [w] \/ exists is n, 2 <= length pride /\ NoDup is /\ (forall j, In j is -> j < length pride) /\
    length is = Nat.max 2 ((length (filter (fun i => l_imp (at_ h i)) pride) + 1) / 2) /\
    n < length is /\ w = nth (nth n is 0) pride 0 /\
    ((forall j, In j pride -> l_f (at_ h j) <> NaN) -> forall m, m < length is ->
       (if m <? n then fltb else fleb) (l_f (at_ h w)) (l_f (at_ h (nth (nth m is 0) pride 0))) = true).
Definition safe1 (sr : num) (wx : vec) (a : lion) (l : elog) (b : lion) (l' : elog) : Prop :=
  let r1 := vsub F wx (l_x a) in let n := vnorm F r1 in
  exists r2 rnd ru an c, in_unit rnd /\ (fleb (flit F (-1) 1) (flit F 1 1) = true -> mid (flit F (-1) 1) (flit F 1 1) ru) /\
    (fleb (fdiv F (fneg pi) (flit F 6 1)) (fdiv F pi (flit F 6 1)) = true -> mid (fdiv F (fneg pi) (flit F 6 1)) (fdiv F pi (flit F 6 1)) an) /\
    (if feqb n f0 then exists k, k < d /\ r2 = upd (repeat f0 d) k f1
     else exists z, length z = d /\ r2 = vsub F z (vscale F (fdiv F (vsum F (vmul F r1 z)) (vsum F (vmul F r1 r1))) r1)) /\
    moves (vadd F (vadd F (l_cx a) (vscale F (fmul F (fmul F (flit F 2 1) (fdiv F n sr)) rnd) r1))
                  (vscale F (fmul F (fmul F ru (ftan F an)) (fdiv F n sr)) r2)) a l c l' /\ follows c b.
Definition goes_safe (sr : num) (wx : vec) (i : nat) (h : list lion) (l : elog) (h' : list lion) (l' : elog) : Prop :=
  if l_male (at_ h i) || negb (l_group (at_ h i) =? 0) then h' = h /\ l' = l else exists b, safe1 sr wx (at_ h i) l b l' /\ h' = upd h i b.
Definition made_safe (sr : num) (pride : list nat) (h : list lion) (l : elog) (h' : list lion) (l' : elog) : Prop :=
  exists w, wins h pride w /\ folds (goes_safe sr (l_x (at_ h w))) pride h l h' l'.
(** the length of the first side of the search space *)
Definition range_is (sr : num) : Prop := 0 < d /\ sr = fsqrt F (fadd F (flit F 0 1) (fmul F (fsub F (nth 0 (c_upper C) NaN) (nth 0 (c_lower C) NaN)) (fsub F (nth 0 (c_upper C) NaN) (nth 0 (c_lower C) NaN)))).

(** roaming: a male visits places of his pride *)
Definition roams1 (sr : num) (sx : vec) (a : lion) (l : elog) (b : lion) (l' : elog) : Prop :=
  let dd := fdiv F (vnorm F (vsub F sx (l_x a))) sr in
  exists x an c, (fleb f0 (fmul F (flit F 2 1) dd) = true -> mid f0 (fmul F (flit F 2 1) dd) x) /\ is_fin (fsub F (fmul F (flit F 2 1) dd) f0) = true /\
    (fleb (fdiv F (fneg pi) (flit F 6 1)) (fdiv F pi (flit F 6 1)) = true -> mid (fdiv F (fneg pi) (flit F 6 1)) (fdiv F pi (flit F 6 1)) an) /\
    moves (map (fun u => fadd F u (fmul F (fmul F x dd) (ftan F an))) (l_cx a)) a l c l' /\ follows c b.
Definition male_roams (sr : num) (size : Z) (pride : list nat) (i : nat) (h : list lion) (l : elog) (h' : list lion) (l' : elog) : Prop :=
  if l_male (at_ h i) then
    exists k, py_round (fmul F (fz F size) (lo_roam p)) = Ret k /\
      if (k <=? 0)%Z then h' = h /\ l' = l
      else exists is b, Z.of_nat (length is) = k /\ NoDup is /\ (forall j, In j is -> j < length pride) /\
             folds (roams1 sr) (map (fun j => l_x (at_ h (nth j pride 0))) is) (at_ h i) l b l' /\ h' = upd h i b
  else h' = h /\ l' = l.
(** a nomad jumps to a random place, the more likely the worse it is *)
Definition nomad_roams (nomads : list nat) (i : nat) (h : list lion) (l : elog) (h' : list lion) (l' : elog) : Prop :=
  let a := at_ h i in let best := np_amin (map (fun j => l_cf (at_ h j)) nomads) in
  exists r b c, in_unit r /\ follows b c /\ h' = upd h i c /\
    if fleb r (fadd F (flit F 1 10) (np_min (flit F 1 2) (fdiv F (fsub F (l_cf a) best) best)))
    then exists y f, inside C y /\ EV y f l l' /\
           b = {| l_x := l_x a; l_f := l_f a; l_male := l_male a; l_pride := l_pride a; l_group := l_group a; l_cx := y; l_cf := f; l_prev := l_prev a; l_imp := l_imp a |}
    else b = a /\ l' = l.

(** mating: two cubs from a female and some males *)
Definition cub_of (pr : Z) (x : vec) (m : bool) (l : elog) (b : lion) (l' : elog) : Prop :=
  exists y f, RP x y /\ EV y f l l' /\
    b = {| l_x := y; l_f := f; l_male := m; l_pride := pr; l_group := 0; l_cx := x; l_cf := f; l_prev := fadd F f (flit F 1 1); l_imp := true |}.
Definition mutated (o z : vec) : Prop :=
  comps d z (fun k c => exists r, in_unit r /\ if fltb r (lo_mut p) then mid (nth k (c_lower C) NaN) (nth k (c_upper C) NaN) c else c = nth k o NaN).
Definition offspring (h : list lion) (fem : nat) (ms : list nat) (pr : Z) (has : bool) (l : elog) (cubs : list lion) (l' : elog) : Prop :=
  if length ms =? 0 then cubs = [] /\ l' = l
  else exists is beta z1 z2 g b1 b2 l1, NoDup is /\ (forall j, In j is -> j < length ms) /\ in_unit g /\
    (if negb has || (length ms =? 1) then length is = 1 else 1 <= length is < length ms) /\
    (let x := l_x (at_ h fem) in
     let mean := map (fun a => fdiv F a (fnat F (length is))) (sum_rows F d (map (fun j => l_x (at_ h (nth j ms 0))) is)) in
     let c := fsub F (flit F 1 1) beta in
     mutated (vadd F (vscale F beta x) (vscale F c mean)) z1 /\ mutated (vadd F (vscale F c x) (vscale F beta mean)) z2) /\
    cub_of pr z1 (fltb g (flit F 1 2)) l b1 l1 /\ cub_of pr z2 (negb (fltb g (flit F 1 2))) l1 b2 l' /\ cubs = [b1; b2].
Definition mates (ms : list nat) (pr : Z) (has : bool) (fem : nat) (s : list lion * list nat) (l : elog) (s' : list lion * list nat) (l' : elog) : Prop :=
  let (h, cubs) := s in let (h', cubs') := s' in
  exists r new, in_unit r /\ h' = h ++ new /\ cubs' = cubs ++ seq (length h) (length new) /\
    if fltb r (lo_matef p) then offspring h fem ms pr has l new l' else new = [] /\ l' = l.

(** ** Proofs for the first three phases *)
Variable K : wctx.
Variable VAL : num -> Prop.
Hypothesis HC : cfg_ok C.
Hypothesis HR : forall z (Q : vec -> elog -> Prop) l, length z = d -> (forall y, RP z y -> inside C y -> Q y l) -> wp K (repair z) Q l.
Hypothesis HE : forall x (Q : num -> elog -> Prop) l, inside C x -> (forall v l', EV x v l l' -> ext l l' -> Seen l' x v -> VAL v -> Q v l') -> wp K (eval x) Q l.
Hypothesis HO : K_exn K EOverflow.
(** a lion: its best position is evaluated and inside the bounds, and no worse than the current one *)
Record okl (l : elog) (a : lion) : Prop := {
  ok_in : inside C (l_x a); ok_seen : Seen l (l_x a) (l_f a); ok_len : length (l_cx a) = d; ok_best : fltb (l_cf a) (l_f a) = false; ok_val : VAL (l_f a) }.
Definition Store (l : elog) (h : list lion) : Prop := Forall (okl l) h.
Definition Ids (h : list lion) (ids : list nat) : Prop := Forall (fun i => i < length h) ids.
(** what the first phases leave alone *)
Record frame (a b : lion) : Prop := {
  fr_male : l_male b = l_male a; fr_pride : l_pride b = l_pride a; fr_prev : l_prev b = l_prev a; fr_imp : l_imp b = l_imp a;
  fr_best : l_x b = l_x a /\ l_f b = l_f a \/ fltb (l_f b) (l_f a) = true }.
Definition kin (h h' : list lion) : Prop := length h' = length h /\ forall i, frame (at_ h i) (at_ h' i).
Lemma frame_refl : forall a, frame a a.
Proof. constructor; auto. Qed.
Lemma frame_trans : forall a b c, frame a b -> frame b c -> frame a c.
Proof.
  intros a b c [A1 A2 A3 A4 A5] [B1 B2 B3 B4 B5]. constructor; try congruence. destruct B5 as [[E1 E2]|B5], A5 as [[E3 E4]|A5].
  - left; split; congruence.
  - right. rewrite E2. auto.
  - right. rewrite <- E4. auto.
  - right. eapply fltb_trans; eauto.
Qed.
Lemma kin_refl : forall h, kin h h.
Proof. split; auto. intros; apply frame_refl. Qed.
Lemma kin_trans : forall a b c, kin a b -> kin b c -> kin a c.
Proof. intros a b c [L1 H1] [L2 H2]. split; [congruence|]. intros i. eapply frame_trans; eauto. Qed.
Lemma kin_upd : forall h i b, i < length h -> frame (at_ h i) b -> kin h (upd h i b).
Proof.
  intros h i b Hi H. split; [apply upd_length|]. intros j. destruct (Nat.eq_dec i j) as [<-|N]; [rewrite at_upd_same; auto|]. rewrite at_upd_other; auto. apply frame_refl.
Qed.
Lemma Store_at : forall l h i, Store l h -> i < length h -> okl l (at_ h i).
Proof. intros l h i H Hi. exact (proj1 (Forall_forall _ _) H _ (nth_In _ _ Hi)). Qed.
Lemma okl_ext : forall l l' a, okl l a -> ext l l' -> okl l' a.
Proof. intros l l' a [H1 H2 H3 H4 H5] E. constructor; auto. eapply Seen_ext; eauto. Qed.
Lemma Store_ext : forall l l' h, Store l h -> ext l l' -> Store l' h.
Proof. intros l l' h H E. eapply Forall_impl; [|exact H]. intros a Ha. eapply okl_ext; eauto. Qed.
Lemma Store_upd : forall l h i b, Store l h -> okl l b -> Store l (upd h i b).
Proof. intros. apply Forall_upd; auto. Qed.
Lemma Ids_in : forall h ids i, Ids h ids -> In i ids -> i < length h.
Proof. intros h ids i H Hi. exact (proj1 (Forall_forall _ _) H i Hi). Qed.
Lemma Ids_sub : forall h ids ids', Ids h ids -> (forall i, In i ids' -> In i ids) -> Ids h ids'.
Proof. intros h ids ids' H S. apply Forall_forall. intros i Hi. eapply Ids_in; eauto. Qed.
Lemma Ids_len : forall h h' ids, Ids h ids -> length h <= length h' -> Ids h' ids.
Proof. clear. intros h h' ids H L. eapply Forall_impl; [|exact H]. cbn. intros; lia. Qed.
Lemma keep_follows : forall a, follows a (lo_keep a).
Proof. intros a. unfold follows, lo_keep. destruct (fltb (l_cf a) (l_f a)); auto. destruct a; auto. Qed.
(** a step of a lion: it moves somewhere inside the bounds, and the best position follows *)
Lemma step_ok : forall l l' a b z, okl l a -> ext l l' -> moves z a l b l' -> inside C (l_cx b) -> Seen l' (l_cx b) (l_cf b) -> VAL (l_cf b) -> okl l' (lo_keep b) /\ frame a (lo_keep b).
Proof.
  intros l l' a b z [H1 H2 H3 H4 H5] E (y & f & _ & _ & ->) I S V. cbn [l_cx l_cf] in *. unfold lo_keep. cbn [l_cf l_f]. destruct (fltb f (l_f a)) eqn:B; split; constructor; cbn [l_x l_f l_cx l_cf l_male l_pride l_prev l_imp]; auto.
  - apply inside_len; auto.
  - apply fltb_irrefl.
  - eapply Seen_ext; eauto.
  - apply inside_len; auto.
Qed.
Lemma w_moved : forall a z (Q : lion -> elog -> Prop) l, length z = d -> okl l a ->
  (forall b l', moves z a l b l' -> okl l' (lo_keep b) -> frame a (lo_keep b) -> ext l l' -> Q b l') -> wp K (lo_moved a z) Q l.
Proof.
  intros a z Q l L Ha HQ. unfold lo_moved. apply wp_bind. apply HR; auto. intros y Hy Iy. apply wp_bind. apply HE; auto. intros f l' He E S V. apply w_done.
  assert (M : moves z a l (set_cur a y f) l') by (exists y, f; auto). destruct (step_ok _ _ _ _ _ Ha E M) as [G1 G2]; auto.
Qed.
Lemma w_draw : forall lo hi (Q : num -> elog -> Prop) l, (forall r, is_fin (fsub F hi lo) = true -> (fleb lo hi = true -> mid lo hi r) -> Q r l) -> wp K (draw F lo hi) Q l.
Proof. intros lo hi Q l H. unfold draw. destruct (is_fin (fsub F hi lo)); [|exact HO]. apply w_uniform. intros r Hr. apply H; auto. Qed.
Lemma w_oppose : forall prey a (Q : lion -> elog -> Prop) l, length prey = d -> okl l a ->
  (forall z b l', opposed prey (l_cx a) z -> moves z a l b l' -> okl l' (lo_keep b) -> frame a (lo_keep b) -> ext l l' -> Q b l') -> wp K (lo_oppose F C prey a) Q l.
Proof.
  intros prey a Q l Lp Ha HQ. unfold lo_oppose. apply wp_bind.
  apply (w_mapM_seq _ _ (fun k c => let q := nth k prey NaN in let o := fsub F (fmul F (flit F 2 1) q) (nth k (l_cx a) NaN) in
    if fltb o q then mid o q c else if fltb q o then mid q o c else c = nth k (l_cx a) NaN) _ _ NaN).
  - intros k Q' Hk HQ'. fold d in Hk. apply wp_bind. apply w_nthP; [lia|]. intros q Eq. apply wp_bind. apply w_nthP; [rewrite (ok_len _ _ Ha); auto|]. intros c Ec.
    apply (nth_error_nth _ _ NaN) in Eq. apply (nth_error_nth _ _ NaN) in Ec. subst q c. cbv zeta in *.
    destruct (fltb _ (nth k prey NaN)) eqn:B1 in |- *; rewrite ?B1 in HQ'; [apply w_draw; intros r _ Hr; apply HQ'; apply Hr; apply fltb_fleb; auto|].
    destruct (fltb (nth k prey NaN) _) eqn:B2 in |- *; rewrite ?B2 in HQ'; [apply w_draw; intros r _ Hr; apply HQ'; apply Hr; apply fltb_fleb; auto|]. apply w_done. apply HQ'. reflexivity.
  - intros z Lz Hz. apply w_moved; auto. intros b l' M G1 G2 E. apply (HQ z); auto. split; auto.
Qed.
Lemma w_center : forall prey a (Q : lion -> elog -> Prop) l, length prey = d -> okl l a ->
  (forall z b l', centred prey (l_cx a) z -> moves z a l b l' -> okl l' (lo_keep b) -> frame a (lo_keep b) -> ext l l' -> Q b l') -> wp K (lo_center F C prey a) Q l.
Proof.
  intros prey a Q l Lp Ha HQ. unfold lo_center. apply wp_bind.
  apply (w_mapM_seq _ _ (fun k c => let q := nth k prey NaN in let o := nth k (l_cx a) NaN in
    if fltb o q then mid o q c else if fltb q o then mid q o c else c = o) _ _ NaN).
  - intros k Q' Hk HQ'. fold d in Hk. apply wp_bind. apply w_nthP; [lia|]. intros q Eq. apply wp_bind. apply w_nthP; [rewrite (ok_len _ _ Ha); auto|]. intros c Ec.
    apply (nth_error_nth _ _ NaN) in Eq. apply (nth_error_nth _ _ NaN) in Ec. subst q c. cbv zeta in *.
    destruct (fltb _ (nth k prey NaN)) eqn:B1 in |- *; rewrite ?B1 in HQ'; [apply w_draw; intros r _ Hr; apply HQ'; apply Hr; apply fltb_fleb; auto|].
    destruct (fltb (nth k prey NaN) _) eqn:B2 in |- *; rewrite ?B2 in HQ'; [apply w_draw; intros r _ Hr; apply HQ'; apply Hr; apply fltb_fleb; auto|]. apply w_done. apply HQ'. reflexivity.
  - intros z Lz Hz. apply w_moved; auto. intros b l' M G1 G2 E. apply (HQ z); auto. split; auto.
Qed.
Lemma keep_id : forall l a, okl l a -> lo_keep a = a.
Proof. intros l a [_ _ _ H _]. unfold lo_keep. rewrite H. reflexivity. Qed.
(** 328-345 *)
Lemma w_hunt0 : forall pride h (Q : list lion * vec * list num * list nat -> elog -> Prop) l, Store l h -> Ids h pride ->
  (forall h1 sum gf hs prey, folds grouped pride (h, repeat f0 d, repeat f0 4, []) l (h1, sum, gf, hs) l -> prey_of sum hs prey -> length prey = d ->
     Store l h1 -> kin h h1 -> (forall i, In i hs -> In i pride) -> Q (h1, prey, gf, hs) l) -> wp K (lo_hunt0 F C h pride) Q l.
Proof.
  intros pride h Q l Hs Hi HQ. unfold lo_hunt0. apply wp_bind.
  apply (w_folds _ _ _ _ grouped (fun s l1 => let '(h1, sum, gf, hs) := s in l1 = l /\ Store l h1 /\ kin h h1 /\ length sum = d /\ forall i, In i hs -> In i pride)).
  - split; auto. split; auto. split; [apply kin_refl|]. split; [apply repeat_length|]. intros i [].
  - intros i [[[h1 sum] gf] hs] l1 Hin (-> & S1 & K1 & L1 & I1). assert (Li : i < length h1) by (rewrite (proj1 K1); eapply Ids_in; eauto).
    assert (Oi := Store_at _ _ _ S1 Li). unfold lo_group. apply wp_bind. destruct (l_male (at_ h1 i)) eqn:B.
    + apply w_done. destruct (l_group (at_ h1 i) =? 0) eqn:B2; apply w_done; (split; [split; auto; split; [left; auto|]|]).
      * apply Nat.eqb_eq in B2. left; auto.
      * split; auto.
      * apply Nat.eqb_neq in B2. right; auto.
      * split; auto. split; auto. split; auto. split; [apply vadd_length; auto; apply Oi|]. intros j Hj. apply in_app_or in Hj. destruct Hj as [Hj|[<-|[]]]; auto.
    + apply wp_bind. apply w_integers; [lia|]. intros g Hg. apply w_done. rewrite at_upd_same by auto. cbn [l_group set_group l_cx].
      assert (S2 : Store l (upd h1 i (set_group (at_ h1 i) g))) by (apply Store_upd; auto; destruct Oi; constructor; auto).
      assert (K2 : kin h (upd h1 i (set_group (at_ h1 i) g))) by (eapply kin_trans; [exact K1|]; apply kin_upd; auto; constructor; auto).
      destruct (g =? 0) eqn:B2; apply w_done; (split; [split; auto; split; [right; split; auto; exists g; auto|]|]); rewrite ?at_upd_same by auto; cbn [l_group set_group l_cx].
      * apply Nat.eqb_eq in B2. left; auto.
      * split; auto.
      * apply Nat.eqb_neq in B2. right; auto.
      * split; auto. split; auto. split; auto. split; [apply vadd_length; auto; apply Oi|]. intros j Hj. apply in_app_or in Hj. destruct Hj as [Hj|[<-|[]]]; auto.
  - intros [[[h1 sum] gf] hs] l1 Hf (-> & S1 & K1 & L1 & I1). apply wp_bind. apply HR.
    + destruct hs; [auto|rewrite map_length; auto].
    + intros y Hy Iy. apply w_done. apply (HQ h1 sum gf hs y); auto; [|apply inside_len; auto]. unfold prey_of. destruct hs; auto.
Qed.
Lemma w_hunter : forall r0 l0 c0 h prey i (Q : list lion * vec -> elog -> Prop) l, Store l h -> i < length h -> length prey = d ->
  (forall h' prey' l', hunts r0 l0 c0 i (h, prey) l (h', prey') l' -> Store l' h' -> kin h h' -> length prey' = d -> ext l l' -> Q (h', prey') l') ->
  wp K (lo_hunter F C r0 l0 c0 (h, prey) i) Q l.
Proof.
  intros r0 l0 c0 h prey i Q l Hs Hi Lp HQ. assert (Oi := Store_at _ _ _ Hs Hi). unfold lo_hunter. apply wp_bind.
  assert (G : forall b l', (if (l_group (at_ h i) =? l0) || (l_group (at_ h i) =? r0) then exists z, opposed prey (l_cx (at_ h i)) z /\ moves z (at_ h i) l b l'
                else if l_group (at_ h i) =? c0 then exists z, centred prey (l_cx (at_ h i)) z /\ moves z (at_ h i) l b l' else b = at_ h i /\ l' = l) ->
    okl l' (lo_keep b) -> frame (at_ h i) (lo_keep b) -> length (l_cx b) = d -> ext l l' ->
    wp K (if fltb (l_cf b) (l_f b) then
            let* r := random in
            let* q := repair (vadd F prey (vscale F (fmul F r (fsub F (flit F 1 1) (fdiv F (l_cf b) (l_prev b)))) (vsub F prey (l_cx b)))) in
            Done (upd h i (lo_keep b), q)
          else Done (upd h i (lo_keep b), prey)) Q l').
  { intros b l' Hb Ob Fb Lb E. assert (S2 : Store l' (upd h i (lo_keep b))) by (apply Store_upd; auto; eapply Store_ext; eauto).
    assert (K2 : kin h (upd h i (lo_keep b))) by (apply kin_upd; auto). destruct (fltb (l_cf b) (l_f b)) eqn:B.
    - apply wp_bind. apply w_random_u. intros r Hr. apply wp_bind. apply HR.
      + apply vadd_length; auto. apply vscale_length. apply vsub_length; auto.
      + intros q Hq Iq. apply w_done. apply HQ; auto; [|apply inside_len; auto]. exists b, (lo_keep b). split; auto. split; [apply keep_follows|]. split; auto. rewrite B. exists r. auto.
    - apply w_done. apply HQ; auto. exists b, (lo_keep b). split; auto. split; [apply keep_follows|]. split; auto. rewrite B. auto. }
  assert (Lm : forall z b l', moves z (at_ h i) l b l' -> okl l' (lo_keep b) -> length (l_cx b) = d).
  { intros z b l' _ [_ _ H _ _]. unfold lo_keep in H. destruct (fltb (l_cf b) (l_f b)); auto. }
  destruct ((l_group (at_ h i) =? l0) || (l_group (at_ h i) =? r0)) eqn:B1; [|destruct (l_group (at_ h i) =? c0) eqn:B2].
  - apply w_oppose; auto. intros z b l' H1 H2 H3 H4 H5. apply G; eauto.
  - apply w_center; auto. intros z b l' H1 H2 H3 H4 H5. apply G; eauto.
  - apply w_done. apply G; auto.
    + rewrite (keep_id _ _ Oi). auto.
    + rewrite (keep_id _ _ Oi). apply frame_refl.
    + apply Oi.
Qed.
Lemma w_hunt_pride : forall pride h (Q : list lion -> elog -> Prop) l, Store l h -> Ids h pride ->
  (forall h' l', hunted pride h l h' l' -> Store l' h' -> kin h h' -> ext l l' -> Q h' l') -> wp K (lo_hunt_pride F C h pride) Q l.
Proof.
  intros pride h Q l Hs Hi HQ. unfold lo_hunt_pride. apply wp_bind. apply w_hunt0; auto. intros h1 sum gf hs prey H1 H2 H3 H4 H5 H6. apply wp_bind.
  apply (w_folds _ _ _ _ (hunts (1 + nth 0 (argsort (tl gf)) 0) (1 + nth 1 (argsort (tl gf)) 0) (1 + nth 2 (argsort (tl gf)) 0))
    (fun s l1 => let (h2, prey2) := s in Store l1 h2 /\ kin h1 h2 /\ length prey2 = d /\ ext l l1)).
  - split; auto. split; [apply kin_refl|]. split; auto.
  - intros i [h2 prey2] l1 Hin (S1 & K1 & L1 & E1). assert (Gg : length gf = 4 /\ length (argsort (tl gf)) = 3).
    { assert (X : length gf = 4).
      { apply (folds_inv _ _ _ (fun s _ => let '(_, _, g, _) := s in length g = 4) _ _ _ _ _ H1); [|reflexivity]. clear. intros a [[[h s] g] hs] l [[[h' s'] g'] hs'] l' _ (_ & [(_ & _ & ->)|(_ & g0 & _ & _ & ->)] & _); auto. rewrite upd_length. auto. }
      split; auto. rewrite argsort_length. destruct gf; [discriminate|]. cbn in *. lia. }
    destruct Gg as [_ Gg]. destruct (argsort (tl gf)) as [|a0 [|a1 [|a2 [|]]]] eqn:Ea; try discriminate. cbn [map nth].
    apply w_hunter; auto; [rewrite (proj1 K1), (proj1 H5); eapply Ids_in; eauto|]. intros h' prey' l' G1 G2 G3 G4 G5. split; [exact G1|]. split; auto. split; [eapply kin_trans; eauto|]. split; auto. eapply ext_trans; eauto.
  - intros [h2 prey2] l1 Hf (S1 & K1 & L1 & E1). apply w_done. apply HQ; auto; [|eapply kin_trans; eauto]. exists h1, sum, gf, hs, prey, prey2. auto.
Qed.
Lemma w_hunting : forall rows pop h (Q : list lion -> elog -> Prop) l, Store l h -> Ids h pop ->
  (forall h' l', folds hunted (prides rows pop) h l h' l' -> Store l' h' -> kin h h' -> ext l l' -> Q h' l') -> wp K (lo_hunting F C rows pop h) Q l.
Proof.
  intros rows pop h Q l Hs Hi HQ. unfold lo_hunting. apply (w_folds _ _ _ _ hunted (fun h2 l1 => Store l1 h2 /\ kin h h2 /\ ext l l1)).
  - split; auto. split; [apply kin_refl|apply ext_refl].
  - intros pride h2 l1 Hp (S1 & K1 & E1). apply w_hunt_pride; auto.
    + eapply Ids_sub; [eapply Ids_len; [exact Hi|rewrite (proj1 K1); auto]|]. intros i H. eapply prides_in; eauto.
    + intros h' l' G1 G2 G3 G4. split; auto. split; auto. split; [eapply kin_trans; eauto|eapply ext_trans; eauto].
  - intros h2 l1 Hf (S1 & K1 & E1). apply HQ; auto.
Qed.

(** the safe place *)
Lemma least_spec : forall A (key : A -> num) xs x, exists n, n <= length xs /\ least key x xs = nth n (x :: xs) x /\
  ((forall y, In y (x :: xs) -> key y <> NaN) -> forall m, m <= length xs -> (if m <? n then fltb else fleb) (key (least key x xs)) (key (nth m (x :: xs) x)) = true).
Proof.
  clear. intros A key. induction xs as [|y xs IH]; intros x.
  - exists 0. split; auto. split; auto. intros H m Hm. destruct m; [|cbn in Hm; lia]. apply fleb_refl. apply H. left; auto.
  - change (least key x (y :: xs)) with (least key (if fltb (key y) (key x) then y else x) xs). assert (Dx : forall z k, k <= length xs -> nth k (z :: xs) z = nth k (z :: xs) x).
    { intros z k Hk. apply nth_indep. cbn. lia. }
    destruct (fltb (key y) (key x)) eqn:B.
    + destruct (IH y) as (n & Hn & E & G). exists (S n). split; [cbn; lia|]. split; [rewrite E; exact (Dx y n Hn)|]. intros N m Hm.
      assert (G' := G ltac:(intros z Hz; apply N; right; auto)). destruct m as [|m].
      * cbn [Nat.ltb Nat.leb nth]. assert (G0 := G' 0 ltac:(lia)). cbn [nth] in G0. destruct (0 <? n); [eapply fltb_trans; eauto|eapply fleb_fltb_trans; eauto].
      * assert (G0 := G' m ltac:(cbn in Hm; lia)). cbn [length] in Hm. rewrite (Dx y m) in G0 by lia. exact G0.
    + destruct (IH x) as (n & Hn & E & G). exists (match n with 0 => 0 | S n' => S (S n') end). split; [destruct n; cbn; lia|]. split; [rewrite E; destruct n; reflexivity|]. intros N m Hm.
      assert (G' := G ltac:(intros z [<-|Hz]; apply N; [left|right; right]; auto)).
      assert (Nx : key x <> NaN) by (apply N; left; auto). assert (Ny : key y <> NaN) by (apply N; right; left; auto). assert (B' := fltb_false_fleb _ _ Ny Nx B).
      assert (G0 := G' 0 ltac:(lia)). cbn [nth] in G0. destruct m as [|[|m]].
      * cbn [nth]. destruct n; exact G0.
      * cbn [nth]. destruct n as [|n]; [cbn in G0 |- *; eapply fleb_trans; eauto|]. cbn in G0 |- *. eapply fltb_fleb_trans; eauto.
      * assert (G1 := G' (S m) ltac:(cbn in Hm; lia)). cbn [nth] in G1 |- *. destruct n as [|n]; exact G1.
Qed.
Lemma w_winner : forall h pride (Q : nat -> elog -> Prop) l, pride <> [] \/ K_exn K EIndex -> (forall w, wins h pride w -> In w pride -> Q w l) -> wp K (lo_winner h pride) Q l.
Proof.
  intros h pride Q l Hp HQ. unfold lo_winner. destruct pride as [|i0 [|i1 pr]]; [destruct Hp as [Hp|Hp]; [congruence|exact Hp]|apply w_done; apply HQ; [left; auto|left; auto]|].
  set (pride := i0 :: i1 :: pr) in *. assert (L2 : 2 <= length pride) by (cbn; lia). clearbody pride.
  set (k := length (filter (fun i => l_imp (at_ h i)) pride)). assert (Hk : k <= length pride) by apply filter_le.
  assert (Hc : Nat.max 2 ((k + 1) / 2) <= length pride) by (assert ((k + 1) / 2 <= k \/ k = 0) by (destruct k as [|[|k0]]; [auto|left; cbn; lia|left; apply Nat.div_le_upper_bound; lia]); destruct H as [H|H]; [lia|rewrite H; cbn; lia]).
  apply wp_bind. apply w_choice; auto. intros is L ND Hi. destruct is as [|j is]; [cbn [length] in L; lia|]. cbn [map]. apply w_done.
  destruct (least_spec _ (fun j => l_f (at_ h j)) (map (fun j => nth j pride 0) is) (nth j pride 0)) as (n & Hn & E & G). rewrite map_length in *.
  assert (M : forall m, m <= length is -> nth m (nth j pride 0 :: map (fun j0 => nth j0 pride 0) is) (nth j pride 0) = nth (nth m (j :: is) 0) pride 0).
  { intros m Hm. change (nth j pride 0 :: map (fun j0 => nth j0 pride 0) is) with (map (fun j0 => nth j0 pride 0) (j :: is)).
    rewrite (nth_indep _ _ (nth 0 pride 0)) by (rewrite map_length; cbn; lia). rewrite (map_nth (fun j0 => nth j0 pride 0) (j :: is) 0 m). reflexivity. }
  rewrite M in E by auto. assert (Iw : In (least (fun j => l_f (at_ h j)) (nth j pride 0) (map (fun j => nth j pride 0) is)) pride).
  { rewrite E. apply nth_In. apply Hi. apply nth_In. cbn. lia. }
  apply HQ; auto. right. exists (j :: is), n. split; auto. split; auto. split; auto. split; [exact L|]. split; [cbn; lia|]. split; [exact E|].
  intros N m Hm. assert (G' := G ltac:(intros y [<-|Hy]; apply N; [apply nth_In; apply Hi; left; auto|]; apply in_map_iff in Hy; destruct Hy as (q & <- & Hq); apply nth_In; apply Hi; right; auto)).
  cbn [length] in Hm. assert (G0 := G' m ltac:(lia)). rewrite M in G0 by lia. exact G0.
Qed.
Lemma w_range : forall (Q : num -> elog -> Prop) l, 0 < d \/ K_exn K EIndex -> (forall sr, range_is sr -> Q sr l) -> wp K (lo_range F C) Q l.
Proof.
  intros Q l Hd HQ. unfold lo_range. destruct HC as (L1 & L2 & _). destruct (Compare_dec.le_lt_dec d 0) as [D|D].
  - destruct Hd as [Hd|Hd]; [lia|]. fold d in L1, L2. destruct (c_upper C); [|cbn in L2; lia]. exact Hd.
  - fold d in L1, L2. apply wp_bind. apply w_nthP; [lia|]. intros u Eu. apply wp_bind. apply w_nthP; [lia|]. intros v Ev. apply w_done. apply HQ.
    apply (nth_error_nth _ _ NaN) in Eu. apply (nth_error_nth _ _ NaN) in Ev. subst u v. split; auto.
Qed.
Lemma w_safe1 : forall sr wx a (Q : lion -> elog -> Prop) l, 0 < d -> length wx = d -> okl l a ->
  (forall b l', safe1 sr wx a l b l' -> okl l' b -> frame a b -> ext l l' -> Q b l') -> wp K (lo_safe1 F pi sr wx a) Q l.
Proof.
  intros sr wx a Q l Hd Lw Ha HQ. unfold lo_safe1. set (r1 := vsub F wx (l_x a)). assert (L1 : length r1 = d) by (apply vsub_length; auto; apply inside_len; auto; apply Ha). rewrite L1.
  apply wp_bind. assert (G : forall r2, length r2 = d -> (if feqb (vnorm F r1) f0 then exists k, k < d /\ r2 = upd (repeat f0 d) k f1
     else exists z, length z = d /\ r2 = vsub F z (vscale F (fdiv F (vsum F (vmul F r1 z)) (vsum F (vmul F r1 r1))) r1)) ->
     wp K (let* rnd := random in
           let* ru := uniform (flit F (-1) 1) (flit F 1 1) in
           let* an := uniform (fdiv F (fneg pi) (flit F 6 1)) (fdiv F pi (flit F 6 1)) in
           let* b := lo_moved a (vadd F (vadd F (l_cx a) (vscale F (fmul F (fmul F (flit F 2 1) (fdiv F (vnorm F r1) sr)) rnd) r1))
                               (vscale F (fmul F (fmul F ru (ftan F an)) (fdiv F (vnorm F r1) sr)) r2)) in
           Done (lo_keep b)) Q l).
  { intros r2 L2 H2. apply wp_bind. apply w_random_u. intros rnd Hr. apply wp_bind. apply w_uniform. intros ru Hu. apply wp_bind. apply w_uniform. intros an Hn. apply wp_bind. apply w_moved; auto.
    - apply vadd_length; [apply vadd_length; [apply Ha|]|]; apply vscale_length; auto.
    - intros b l' M O1 F1 E. apply w_done. apply HQ; auto. exists r2, rnd, ru, an, b. split; auto. split; auto. split; auto. split; auto. split; [exact M|]. apply keep_follows. }
  destruct (feqb (vnorm F r1) f0) eqn:B.
  - apply wp_bind. apply w_integers; auto. intros k Hk. apply w_done. apply G; [rewrite upd_length; apply repeat_length|]. eauto.
  - apply wp_bind. apply w_rnd_f_vec. intros z Lz. apply w_done. apply G; [apply vsub_length; auto; apply vscale_length; auto|]. eauto.
Qed.
Lemma w_safe_pride : forall sr pride h (Q : list lion -> elog -> Prop) l, 0 < d -> pride <> [] \/ K_exn K EIndex -> Store l h -> Ids h pride ->
  (forall h' l', made_safe sr pride h l h' l' -> Store l' h' -> kin h h' -> ext l l' -> Q h' l') -> wp K (lo_safe_pride F pi sr h pride) Q l.
Proof.
  intros sr pride h Q l Hd Hp Hs Hi HQ. unfold lo_safe_pride. apply wp_bind. apply w_winner; auto. intros w Hw Iw.
  assert (Lw : length (l_x (at_ h w)) = d) by (apply inside_len; auto; apply (Store_at l); auto; eapply Ids_in; eauto).
  apply (w_folds _ _ _ _ (goes_safe sr (l_x (at_ h w))) (fun h2 l1 => Store l1 h2 /\ kin h h2 /\ ext l l1)).
  - split; auto. split; [apply kin_refl|apply ext_refl].
  - intros i h2 l1 Hin (S1 & K1 & E1). assert (Li : i < length h2) by (rewrite (proj1 K1); eapply Ids_in; eauto). unfold goes_safe.
    destruct (l_male (at_ h2 i) || negb (l_group (at_ h2 i) =? 0)) eqn:B; [apply w_done; auto|]. apply wp_bind. apply w_safe1; auto; [apply Store_at; auto|].
    intros b l' H1 H2 H3 H4. apply w_done. split; eauto. split; [apply Store_upd; auto; eapply Store_ext; eauto|]. split; [eapply kin_trans; [exact K1|]; apply kin_upd; auto|eapply ext_trans; eauto].
  - intros h2 l1 Hf (S1 & K1 & E1). apply HQ; auto. exists w. auto.
Qed.
Definition all_safe (rows : list lrow) (pop : list nat) (h : list lion) (l : elog) (h' : list lion) (l' : elog) : Prop :=
  exists sr, range_is sr /\ folds (made_safe sr) (prides rows pop) h l h' l'.
Lemma w_safe : forall rows pop h (Q : list lion -> elog -> Prop) l, 0 < d /\ Forall (fun q => q <> []) (prides rows pop) \/ K_exn K EIndex -> Store l h -> Ids h pop ->
  (forall h' l', all_safe rows pop h l h' l' -> Store l' h' -> kin h h' -> ext l l' -> Q h' l') -> wp K (lo_safe F C pi rows pop h) Q l.
Proof.
  intros rows pop h Q l Hx Hs Hi HQ. unfold lo_safe. apply wp_bind. apply w_range; [tauto|]. intros sr Hsr. apply (w_folds _ _ _ _ (made_safe sr) (fun h2 l1 => Store l1 h2 /\ kin h h2 /\ ext l l1)).
  - split; auto. split; [apply kin_refl|apply ext_refl].
  - intros pride h2 l1 Hp (S1 & K1 & E1). apply w_safe_pride; auto.
    + apply Hsr.
    + destruct Hx as [[_ Hx]|Hx]; auto. left. exact (proj1 (Forall_forall _ _) Hx _ Hp).
    + eapply Ids_sub; [eapply Ids_len; [exact Hi|rewrite (proj1 K1); auto]|]. intros i H. eapply prides_in; eauto.
    + intros h' l' G1 G2 G3 G4. split; auto. split; auto. split; [eapply kin_trans; eauto|eapply ext_trans; eauto].
  - intros h2 l1 Hf (S1 & K1 & E1). apply HQ; auto. exists sr. auto.
Qed.

(** roaming *)
Lemma w_roam1 : forall sr a sx (Q : lion -> elog -> Prop) l, okl l a ->
  (forall b l', roams1 sr sx a l b l' -> okl l' b -> frame a b -> ext l l' -> Q b l') -> wp K (lo_roam1 F pi sr a sx) Q l.
Proof.
  intros sr a sx Q l Ha HQ. unfold lo_roam1. apply wp_bind. apply w_draw. intros x Hf Hx. apply wp_bind. apply w_uniform. intros an Hn. apply wp_bind. apply w_moved; auto.
  - unfold vshift. rewrite map_length. apply Ha.
  - intros b l' M O1 F1 E. apply w_done. apply HQ; auto. exists x, an, b. split; auto. split; auto. split; auto. split; [exact M|]. apply keep_follows.
Qed.
(** the number of places a male visits can be chosen *)
Definition roam_ok (size : Z) (n : nat) : Prop := exists k, py_round (fmul F (fz F size) (lo_roam p)) = Ret k /\ (k <= Z.of_nat n)%Z.
Lemma w_py_round : forall x (Q : Z -> elog -> Prop) l, (exists k, py_round x = Ret k) \/ K_exn K EValue -> (forall k, py_round x = Ret k -> Q k l) -> wp K (lift (py_round x)) Q l.
Proof.
  intros x Q l Hx HQ. apply w_lift_x; auto. intros e Ee. destruct Hx as [(k & Ek)|Hx]; [congruence|]. destruct x; cbn in Ee; inversion Ee; subst; auto.
Qed.
Lemma w_roam_male : forall sr size pride h i (Q : list lion -> elog -> Prop) l, roam_ok size (length pride) \/ K_exn K EValue -> Store l h -> i < length h -> Ids h pride ->
  (forall h' l', male_roams sr size pride i h l h' l' -> Store l' h' -> kin h h' -> ext l l' -> Q h' l') -> wp K (lo_roam_male F p pi sr size pride h i) Q l.
Proof.
  intros sr size pride h i Q l Hx Hs Hi Hp HQ. unfold lo_roam_male. destruct (l_male (at_ h i)) eqn:B; cbn [negb].
  2: { apply w_done. apply HQ; auto; [|apply kin_refl]. unfold male_roams. rewrite B. auto. }
  apply wp_bind. apply w_py_round; [destruct Hx as [(k & E & _)|Hx]; eauto|]. intros k Ek. destruct (k <=? 0)%Z eqn:B2.
  { apply w_done. apply HQ; auto; [|apply kin_refl]. unfold male_roams. rewrite B. exists k. rewrite B2. auto. }
  apply Z.leb_gt in B2. apply wp_bind. apply w_choice_x; [destruct Hx as [(k' & E & Hk)|Hx]; [left; assert (k' = k) by congruence; subst; lia|auto]|]. intros is L ND Hin Hl. apply wp_bind.
  apply (w_folds _ _ _ _ (roams1 sr) (fun b l1 => okl l1 b /\ frame (at_ h i) b /\ ext l l1)).
  - split; [apply Store_at; auto|]. split; [apply frame_refl|apply ext_refl].
  - intros sx b l1 _ (O1 & F1 & E1). apply w_roam1; auto. intros b' l' H1 H2 H3 H4. split; auto. split; auto. split; [eapply frame_trans; eauto|eapply ext_trans; eauto].
  - intros b l1 Hf (O1 & F1 & E1). apply w_done. apply HQ; auto.
    + unfold male_roams. rewrite B. exists k. split; auto. destruct (k <=? 0)%Z eqn:B3; [apply Z.leb_le in B3; lia|]. exists is, b. split; [lia|]. auto.
    + apply Store_upd; auto. eapply Store_ext; eauto.
    + apply kin_upd; auto.
Qed.
Lemma w_roam_nomad : forall nomads h i (Q : list lion -> elog -> Prop) l, Store l h -> i < length h ->
  (forall h' l', nomad_roams nomads i h l h' l' -> Store l' h' -> kin h h' -> ext l l' -> Q h' l') -> wp K (lo_roam_nomad F C nomads h i) Q l.
Proof.
  intros nomads h i Q l Hs Hi HQ. assert (Oi := Store_at _ _ _ Hs Hi). unfold lo_roam_nomad. apply wp_bind. apply w_random_u. intros r Hr.
  assert (G : forall b l', okl l' (lo_keep b) -> frame (at_ h i) (lo_keep b) -> ext l l' ->
    (if fleb r (fadd F (flit F 1 10) (np_min (flit F 1 2) (fdiv F (fsub F (l_cf (at_ h i)) (np_amin (map (fun j => l_cf (at_ h j)) nomads))) (np_amin (map (fun j => l_cf (at_ h j)) nomads)))))
     then exists y f, inside C y /\ EV y f l l' /\ b = set_cur (at_ h i) y f else b = at_ h i /\ l' = l) -> wp K (Done (upd h i (lo_keep b))) Q l').
  { intros b l' O1 F1 E H. apply w_done. apply HQ; auto; [|apply Store_upd; auto; eapply Store_ext; eauto|apply kin_upd; auto]. exists r, b, (lo_keep b). split; auto. split; [apply keep_follows|]. split; auto. }
  apply wp_bind. destruct (fleb r _) eqn:B.
  - apply wp_bind. apply w_uniform_pt; auto. intros y Iy. apply wp_bind. apply HE; auto. intros f l' He E Sn V. apply w_done. apply G; auto; [| |eauto].
    + unfold lo_keep. cbn [l_cf l_f set_cur]. destruct Oi as [O1 O2 O3 O4 O5]. destruct (fltb f (l_f (at_ h i))) eqn:B2; constructor; cbn [l_x l_f l_cx l_cf set_cur]; auto; try (apply inside_len; auto; fail); [apply fltb_irrefl|eapply Seen_ext; eauto].
    + unfold lo_keep. cbn [l_cf l_f set_cur]. destruct (fltb f (l_f (at_ h i))) eqn:B2; constructor; cbn [l_x l_f l_male l_pride l_prev l_imp set_cur]; auto.
  - apply w_done. apply G; auto.
    + rewrite (keep_id _ _ Oi). auto.
    + rewrite (keep_id _ _ Oi). apply frame_refl.
Qed.
Definition all_roam (rows : list lrow) (pop : list nat) (h : list lion) (l : elog) (h' : list lion) (l' : elog) : Prop :=
  exists sr h1 l1, range_is sr /\
    folds (fun rp => folds (male_roams sr (lr_n (fst rp)) (snd rp)) (snd rp)) (combine (removelast rows) (prides rows pop)) h l h1 l1 /\
    let nomads := from_z (Z.of_nat (length pop) - lr_n (last rows row0)) pop in folds (nomad_roams nomads) nomads h1 l1 h' l'.
Lemma w_roaming : forall rows pop h (Q : list lion -> elog -> Prop) l, 0 < d \/ K_exn K EIndex ->
  Forall (fun rp => roam_ok (lr_n (fst rp)) (length (snd rp))) (combine (removelast rows) (prides rows pop)) \/ K_exn K EValue -> Store l h -> Ids h pop ->
  (forall h' l', all_roam rows pop h l h' l' -> Store l' h' -> kin h h' -> ext l l' -> Q h' l') -> wp K (lo_roaming F C p pi rows pop h) Q l.
Proof.
  intros rows pop h Q l Hd Hx Hs Hi HQ. unfold lo_roaming. apply wp_bind. apply w_range; auto. intros sr Hsr. apply wp_bind.
  apply (w_folds _ _ _ _ (fun (rp : lrow * list nat) => folds (male_roams sr (lr_n (fst rp)) (snd rp)) (snd rp)) (fun h2 l1 => Store l1 h2 /\ kin h h2 /\ ext l l1)).
  - split; auto. split; [apply kin_refl|apply ext_refl].
  - intros [r pride] h2 l1 Hrp (S1 & K1 & E1). cbn [fst snd] in *. assert (Hp := in_combine_r _ _ _ _ Hrp).
    assert (Ip : Ids h2 pride) by (eapply Ids_sub; [eapply Ids_len; [exact Hi|rewrite (proj1 K1); auto]|]; intros i H; eapply prides_in; eauto).
    apply (w_folds _ _ _ _ (male_roams sr (lr_n r) pride) (fun h3 l2 => Store l2 h3 /\ kin h2 h3 /\ ext l1 l2)).
    + split; auto. split; [apply kin_refl|apply ext_refl].
    + intros i h3 l2 Hin (S2 & K2 & E2). apply w_roam_male; auto.
      * destruct Hx as [Hx|Hx]; auto. left. exact (proj1 (Forall_forall _ _) Hx _ Hrp).
      * rewrite (proj1 K2). eapply Ids_in; eauto.
      * eapply Ids_len; [exact Ip|rewrite (proj1 K2); auto].
      * intros h' l' G1 G2 G3 G4. split; auto. split; auto. split; [eapply kin_trans; eauto|eapply ext_trans; eauto].
    + intros h3 l2 Hf (S2 & K2 & E2). split; auto. split; auto. split; [eapply kin_trans; eauto|eapply ext_trans; eauto].
  - intros h1 l1 Hf1 (S1 & K1 & E1). set (nomads := from_z (Z.of_nat (length pop) - lr_n (last_row rows)) pop).
    assert (In' : Ids h1 nomads) by (eapply Ids_sub; [eapply Ids_len; [exact Hi|rewrite (proj1 K1); auto]|]; intros i H; eapply from_z_in; eauto).
    apply (w_folds _ _ _ _ (nomad_roams nomads) (fun h3 l2 => Store l2 h3 /\ kin h1 h3 /\ ext l1 l2)).
    + split; auto. split; [apply kin_refl|apply ext_refl].
    + intros i h3 l2 Hin (S2 & K2 & E2). apply w_roam_nomad; auto.
      * rewrite (proj1 K2). eapply Ids_in; eauto.
      * intros h' l' G1 G2 G3 G4. split; auto. split; auto. split; [eapply kin_trans; eauto|eapply ext_trans; eauto].
    + intros h3 l2 Hf (S2 & K2 & E2). apply HQ; auto; [|eapply kin_trans; eauto|eapply ext_trans; eauto]. exists sr, h1, l1. auto.
Qed.

(** mating *)
(** h' is h with lions added *)
Lemma w_mutated : forall o1 o2 (Q : list (num * num) -> elog -> Prop) l, length o1 = d -> length o2 = d ->
  (forall zs, mutated o1 (map fst zs) -> mutated o2 (map snd zs) -> Q zs l) ->
  wp K (mapM (fun k =>
        let* r1 := random in
        let* a := if fltb r1 (lo_mut p) then uniform (nth k (c_lower C) NaN) (nth k (c_upper C) NaN) else nthP o1 k in
        let* r2 := random in
        let* b := if fltb r2 (lo_mut p) then uniform (nth k (c_lower C) NaN) (nth k (c_upper C) NaN) else nthP o2 k in
        Done (a, b)) (seq 0 (c_dim C))) Q l.
Proof.
  intros o1 o2 Q l L1 L2 HQ. set (R := fun (o : vec) k c => exists r, in_unit r /\ if fltb r (lo_mut p) then mid (nth k (c_lower C) NaN) (nth k (c_upper C) NaN) c else c = nth k o NaN).
  assert (Bd : forall k, k < d -> fleb (nth k (c_lower C) NaN) (nth k (c_upper C) NaN) = true).
  { intros k Hk. destruct HC as (B1 & B2 & B). apply (Forall2_nth _ _ _ _ _ k _ _ B); apply nth_error_nth'; fold d in B1, B2; lia. }
  assert (G : forall o k (Q' : num -> elog -> Prop), length o = d -> k < d -> (forall c, R o k c -> Q' c l) ->
    wp K (let* r := random in if fltb r (lo_mut p) then uniform (nth k (c_lower C) NaN) (nth k (c_upper C) NaN) else nthP o k) Q' l).
  { intros o k Q' Lo Hk HQ'. apply wp_bind. apply w_random_u. intros r Hr. destruct (fltb r (lo_mut p)) eqn:B.
    - apply w_uniform. intros c Hc. apply HQ'. exists r. rewrite B. split; auto. apply Hc. auto.
    - apply w_nthP; [lia|]. intros c Ec. apply HQ'. exists r. rewrite B. split; auto. symmetry. apply nth_error_nth. auto. }
  apply (w_mapM_seq _ _ (fun k ab => R o1 k (fst ab) /\ R o2 k (snd ab)) _ _ (NaN, NaN)).
  - intros k Q' Hk HQ'. fold d in Hk. assert (G1 := fun Q1 => G o1 k Q1 L1 Hk). assert (G2 := fun Q1 => G o2 k Q1 L2 Hk).
    apply wp_bind. apply w_random_u. intros r1 Hr1. apply wp_bind.
    assert (H2 : forall a, R o1 k a -> wp K (let* r2 := random in
        let* b := if fltb r2 (lo_mut p) then uniform (nth k (c_lower C) NaN) (nth k (c_upper C) NaN) else nthP o2 k in Done (a, b)) Q' l).
    { intros a Ra. apply wp_bind. apply w_random_u. intros r2 Hr2. apply wp_bind. destruct (fltb r2 (lo_mut p)) eqn:B.
      - apply w_uniform. intros c Hc. apply w_done. apply HQ'. split; auto. exists r2. rewrite B. split; auto. apply Hc. auto.
      - apply w_nthP; [lia|]. intros c Ec. apply w_done. apply HQ'. split; auto. exists r2. rewrite B. split; auto. symmetry. apply nth_error_nth. auto. }
    destruct (fltb r1 (lo_mut p)) eqn:B.
    + apply w_uniform. intros c Hc. apply H2. exists r1. rewrite B. split; auto. apply Hc. auto.
    + apply w_nthP; [lia|]. intros c Ec. apply H2. exists r1. rewrite B. split; auto. symmetry. apply nth_error_nth. auto.
  - intros zs Lz Hz. fold d in Lz. apply HQ; (split; [rewrite map_length; auto|]); intros k Hk; fold d in Hz; destruct (Hz k Hk) as [Z1 Z2].
    + assert (X : nth k (map fst zs) NaN = fst (nth k zs (NaN, NaN))) by exact (map_nth fst zs (NaN, NaN) k). rewrite X. exact Z1.
    + assert (X : nth k (map snd zs) NaN = snd (nth k zs (NaN, NaN))) by exact (map_nth snd zs (NaN, NaN) k). rewrite X. exact Z2.
Qed.
Lemma w_cub : forall pr x m (Q : lion -> elog -> Prop) l, length x = d -> (forall b l', cub_of pr x m l b l' -> okl l' b -> ext l l' -> Q b l') -> wp K (lo_cub F pr (x, m)) Q l.
Proof.
  intros pr x m Q l L HQ. unfold lo_cub, ind_evaluate. cbn [fst snd]. apply wp_bind. apply wp_bind. apply HR; auto. intros y Hy Iy. apply wp_bind. apply HE; auto. intros f l' He E Sn V. apply w_done. apply w_done. apply HQ; auto.
  - exists y, f. auto.
  - constructor; auto. cbn [l_cf l_f]. apply fltb_irrefl.
Qed.
Lemma sum_rows_length : forall rows, dims d rows -> length (sum_rows F d rows) = d.
Proof.
  intros [|x rows] H; [apply repeat_length|]. cbn [sum_rows]. inversion H as [|? ? H1 H2]; subst. clear H. revert x H1. induction H2 as [|y rows Hy H2 IH]; intros x H1; auto. cbn [fold_left]. apply IH. apply vadd_length; auto.
Qed.
Lemma w_offspring : forall h fem ms pr has (Q : list lion -> elog -> Prop) l, Store l h -> fem < length h -> Ids h ms ->
  (forall new l', offspring h fem ms pr has l new l' -> Store l' new -> ext l l' -> Q new l') -> wp K (lo_offspring F C p h fem ms pr has) Q l.
Proof.
  intros h fem ms pr has Q l Hs Hf Hm HQ. unfold lo_offspring, offspring in *. destruct ms as [|m0 ms0]; [apply w_done; apply HQ; [cbn; auto|constructor|apply ext_refl]|]. set (ms := m0 :: ms0) in *.
  assert (Lm : 1 <= length ms) by (cbn; lia). assert (Le : length ms =? 0 = false) by (apply Nat.eqb_neq; lia). rewrite Le in HQ. clearbody ms. apply wp_bind.
  assert (G : forall n, (if negb has || (length ms =? 1) then n = 1 else 1 <= n < length ms) -> n <= length ms -> wp K (
      let* is := choice (length ms) n in
      let* beta := rnd_f in
      let mean := centroid F (c_dim C) (map (fun j => l_x (at_ h (nth j ms 0))) is) in
      let fx' := l_x (at_ h fem) in
      let c := fsub F (flit F 1 1) beta in
      let o1 := vadd F (vscale F beta fx') (vscale F c mean) in
      let o2 := vadd F (vscale F c fx') (vscale F beta mean) in
      let* zs := mapM (fun k =>
        let* r1 := random in
        let* a := if fltb r1 (lo_mut p) then uniform (nth k (c_lower C) NaN) (nth k (c_upper C) NaN) else nthP o1 k in
        let* r2 := random in
        let* b := if fltb r2 (lo_mut p) then uniform (nth k (c_lower C) NaN) (nth k (c_upper C) NaN) else nthP o2 k in
        Done (a, b)) (seq 0 (c_dim C)) in
      let* g := random in
      let m := fltb g (flit F 1 2) in
      mapM (lo_cub F pr) [(map fst zs, m); (map snd zs, negb m)]) Q l).
  { intros n Hn Hl. apply wp_bind. apply w_choice; auto. intros is L ND Hi. apply wp_bind. apply w_rnd_f. intros beta. cbv zeta.
    assert (Lx : forall i, i < length h -> length (l_x (at_ h i)) = d) by (intros i Hh; apply inside_len; auto; apply (Store_at l); auto).
    assert (Lc : length (centroid F (c_dim C) (map (fun j => l_x (at_ h (nth j ms 0))) is)) = d).
    { unfold centroid. rewrite map_length. apply sum_rows_length. apply Forall_forall. intros x Hx. apply in_map_iff in Hx. destruct Hx as (j & <- & Hj). apply Lx. eapply Ids_in; eauto. apply nth_In. auto. }
    apply wp_bind. apply w_mutated; [apply vadd_length; apply vscale_length; auto|apply vadd_length; apply vscale_length; auto|]. intros zs M1 M2. apply wp_bind. apply w_random_u. intros g Hg.
    cbn [mapM]. apply wp_bind. apply w_cub; [apply M1|]. intros b1 l1 C1 O1 E1. apply wp_bind. apply wp_bind. apply w_cub; [apply M2|]. intros b2 l2 C2 O2 E2. apply wp_bind. apply w_done. apply w_done. apply w_done.
    apply HQ; [|constructor; [eapply okl_ext; eauto|constructor; auto]|eapply ext_trans; eauto].
    exists is, beta, (map fst zs), (map snd zs), g, b1, b2, l1. split; auto. split; auto. split; auto. split; [rewrite L; auto|]. split; [|split; [exact C1|split; [exact C2|reflexivity]]].
    unfold centroid in *. rewrite map_length in *. split; auto. }
  destruct (negb has || (length ms =? 1)) eqn:B; [apply w_done; apply G; auto|]. apply orb_false_iff in B. destruct B as [_ B]. apply Nat.eqb_neq in B.
  apply wp_bind. apply w_integers; [lia|]. intros r Hr. apply w_done. apply G; lia.
Qed.
(** the store after mating: what was there, and cubs of the pride *)
Definition born (pr : Z) (h : list lion) (s : list lion * list nat) : Prop :=
  exists new, fst s = h ++ new /\ snd s = seq (length h) (length new) /\ Forall (fun b => l_pride b = pr /\ l_prev b = fadd F (l_f b) (flit F 1 1) /\ l_imp b = true) new.
Lemma w_mate : forall h ids pr has (Q : list lion * list nat -> elog -> Prop) l, Store l h -> Ids h ids ->
  (forall h' cubs l', folds (mates (males h ids) pr has) (females h ids) (h, []) l (h', cubs) l' -> Store l' h' -> born pr h (h', cubs) -> ext l l' -> Q (h', cubs) l') ->
  wp K (lo_mate F C p h ids pr has) Q l.
Proof.
  intros h ids pr has Q l Hs Hi HQ. unfold lo_mate. apply (w_folds _ _ _ _ (mates (males h ids) pr has) (fun s l1 => Store l1 (fst s) /\ born pr h s /\ ext l l1)).
  - split; auto. split; [|apply ext_refl]. exists []. rewrite app_nil_r. auto.
  - intros fem [h1 cubs] l1 Hin (S1 & (new & N1 & N2 & N3) & E1). cbn [fst snd] in *. assert (Lh : length h <= length h1) by (rewrite N1, app_length; lia). unfold lo_mate1. apply wp_bind. apply w_random_u. intros r Hr. destruct (fltb r (lo_matef p)) eqn:B.
    + apply wp_bind. apply w_offspring; auto.
      * eapply Nat.lt_le_trans; [|exact Lh]. eapply Ids_in; [exact Hi|]. eapply females_in; eauto.
      * eapply Ids_len; [|exact Lh]. eapply Ids_sub; [exact Hi|]. intros i. apply males_in.
      * intros nw l2 H1 H2 H3. apply w_done. split; [exists r, nw; rewrite B; auto|]. cbn [fst snd]. split; [apply Forall_app; split; auto; eapply Store_ext; eauto|]. split; [|eapply ext_trans; eauto].
        exists (new ++ nw). cbn [fst snd]. split; [rewrite N1, app_assoc; auto|]. split; [rewrite N2, N1, !app_length, seq_app; auto|]. apply Forall_app. split; auto.
        unfold offspring in H1. destruct (length (males h ids) =? 0); [destruct H1 as [-> _]; constructor|]. destruct H1 as (is & beta & z1 & z2 & g & b1 & b2 & l3 & _ & _ & _ & _ & _ & (y1 & f1' & _ & _ & ->) & (y2 & f2' & _ & _ & ->) & ->).
        constructor; [cbn; auto|]. constructor; [cbn; auto|constructor].
    + apply w_done. split; [exists r, []; rewrite B, !app_nil_r; auto|]. cbn [fst snd]. split; auto. split; auto. exists new. auto.
  - intros [h1 cubs] l1 Hf (S1 & B1 & E1). apply HQ; auto.
Qed.
Definition mated_row (h : list lion) (cubs : list nat) (r r' : lrow) : Prop :=
  let nf := Z.of_nat (length (females h cubs)) in let nm := Z.of_nat (length (males h cubs)) in
  r' = {| lr_n := lr_n r + nf + nm; lr_f := lr_f r + nf; lr_m := lr_m r + nm; lr_ef := nf; lr_em := nm |}.
Definition mated_pride (rp : nat * (lrow * list nat)) (s : list lion * list nat * list lrow) (l : elog) (s' : list lion * list nat * list lrow) (l' : elog) : Prop :=
  let '(h, new, rows) := s in let '(h', new', rows') := s' in let '(k, (r, pride)) := rp in
  if (lr_f r =? 0)%Z then h' = h /\ new' = new /\ rows' = rows ++ [{| lr_n := lr_n r; lr_f := lr_f r; lr_m := lr_m r; lr_ef := 0; lr_em := 0 |}] /\ l' = l
  else exists cubs r', folds (mates (males h pride) (Z.of_nat k) true) (females h pride) (h, []) l (h', cubs) l' /\
    new' = new ++ pride ++ cubs /\ mated_row h' cubs r r' /\ rows' = rows ++ [r'].
Definition all_mate (rows : list lrow) (pop : list nat) (h : list lion) (l : elog) (s' : list lion * list nat * list lrow) (l' : elog) : Prop :=
  let '(h', pop', rows') := s' in
  exists h1 new rows1 l1 cubs r', let nomads := from_z (- lr_n (last rows row0)) pop in
    folds mated_pride (combine (seq 0 (length (removelast rows))) (combine (removelast rows) (prides rows pop))) (h, [], []) l (h1, new, rows1) l1 /\
    folds (mates (males h1 nomads) (-1) false) (females h1 nomads) (h1, []) l1 (h', cubs) l' /\
    mated_row h' cubs (last rows row0) r' /\ pop' = new ++ nomads ++ cubs /\ rows' = rows1 ++ [r'].
(** the store grows *)
Definition grows (h h' : list lion) : Prop := exists new, h' = h ++ new.
Lemma grows_refl : forall h, grows h h.
Proof. intros h. exists []. rewrite app_nil_r. auto. Qed.
Lemma grows_trans : forall a b c, grows a b -> grows b c -> grows a c.
Proof. intros a b c (n1 & ->) (n2 & ->). exists (n1 ++ n2). rewrite app_assoc. auto. Qed.
Lemma grows_len : forall h h', grows h h' -> length h <= length h'.
Proof. intros h h' (n & ->). rewrite app_length. lia. Qed.
Lemma born_grows : forall pr h h' cubs, born pr h (h', cubs) -> grows h h' /\ Ids h' cubs.
Proof. intros pr h h' cubs (new & H1 & H2 & _). cbn [fst snd] in *. subst. split; [exists new; auto|]. apply Forall_forall. intros i Hi. apply in_seq in Hi. rewrite app_length. lia. Qed.
Lemma w_mating : forall rows pop h (Q : list lion * list nat * list lrow -> elog -> Prop) l, Store l h -> Ids h pop ->
  (forall h' pop' rows' l', all_mate rows pop h l (h', pop', rows') l' -> Store l' h' -> Ids h' pop' -> grows h h' -> ext l l' -> Q (h', pop', rows') l') ->
  wp K (lo_mating F C p rows pop h) Q l.
Proof.
  intros rows pop h Q l Hs Hi HQ. unfold lo_mating. apply wp_bind.
  apply (w_folds _ _ _ _ mated_pride (fun s l1 => let '(h1, new, rows1) := s in Store l1 h1 /\ Ids h1 new /\ grows h h1 /\ ext l l1)).
  - split; auto. split; [constructor|]. split; [apply grows_refl|apply ext_refl].
  - intros [k [r pride]] [[h1 new] rows1] l1 Hin (S1 & I1 & G1 & E1). unfold lo_mate_pride, mated_pride. destruct (lr_f r =? 0)%Z; [apply w_done; auto|].
    assert (Ip : Ids h1 pride) by (eapply Ids_sub; [eapply Ids_len; [exact Hi|apply grows_len; auto]|]; intros i H; eapply prides_in; eauto; apply in_combine_r in Hin; apply in_combine_r in Hin; exact Hin).
    apply wp_bind. apply w_mate; auto. intros h2 cubs l2 H1 H2 H3 H4. apply w_done. destruct (born_grows _ _ _ _ H3) as [G2 I2]. split.
    + exists cubs, (add_cubs h2 cubs r). split; [exact H1|]. split; auto. split; [reflexivity|reflexivity].
    + split; auto. split; [|split; [eapply grows_trans; eauto|eapply ext_trans; eauto]]. assert (Lg := grows_len _ _ G2). apply Forall_app. split; [eapply Ids_len; eauto|]. apply Forall_app. split; auto. eapply Ids_len; eauto.
  - intros [[h1 new] rows1] l1 Hf (S1 & I1 & G1 & E1). apply wp_bind. set (nomads := from_z (- lr_n (last_row rows)) pop).
    assert (In' : Ids h1 nomads) by (eapply Ids_sub; [eapply Ids_len; [exact Hi|apply grows_len; auto]|]; intros i H; eapply from_z_in; eauto).
    apply w_mate; auto. intros h2 cubs l2 H1 H2 H3 H4. apply w_done. destruct (born_grows _ _ _ _ H3) as [G2 I2]. assert (Lg := grows_len _ _ G2). apply HQ; auto.
    + exists h1, new, rows1, l1, cubs, (add_cubs h2 cubs (last_row rows)). split; [exact Hf|]. split; [exact H1|]. split; [reflexivity|]. split; reflexivity.
    + apply Forall_app. split; [eapply Ids_len; eauto|]. apply Forall_app. split; auto. eapply Ids_len; eauto.
    + eapply grows_trans; eauto.
    + eapply ext_trans; eauto.
Qed.

(** ** The other phases, for any parameters *)
Definition alike (a b : lion) : Prop := l_x b = l_x a /\ l_f b = l_f a /\ l_cx b = l_cx a /\ l_cf b = l_cf a /\ l_male b = l_male a /\ l_prev b = l_prev a /\ l_imp b = l_imp a.
Lemma okl_alike : forall l a b, okl l a -> l_x b = l_x a -> l_f b = l_f a -> l_cx b = l_cx a -> l_cf b = l_cf a -> okl l b.
Proof. intros l a b [H1 H2 H3 H4 H5] E1 E2 E3 E4. constructor; rewrite ?E1, ?E2, ?E3, ?E4; auto. Qed.
(** the store after some moves between prides: every lion is still there but for its pride, and there may be copies *)
Definition moved_on (h h' : list lion) : Prop :=
  length h <= length h' /\ (forall i, i < length h -> alike (at_ h i) (at_ h' i)) /\ forall i, length h <= i < length h' -> exists j, j < length h /\ alike (at_ h j) (at_ h' i).
Lemma alike_refl : forall a, alike a a.
Proof. intros a. repeat split; auto. Qed.
Lemma alike_trans : forall a b c, alike a b -> alike b c -> alike a c.
Proof. unfold alike. intros a b c H1 H2. intuition congruence. Qed.
Lemma moved_refl : forall h, moved_on h h.
Proof. intros h. split; auto. split; [intros; apply alike_refl|intros; lia]. Qed.
Lemma moved_trans : forall a b c, moved_on a b -> moved_on b c -> moved_on a c.
Proof.
  intros a b c (L1 & A1 & B1) (L2 & A2 & B2). split; [lia|]. split.
  - intros i Hi. eapply alike_trans; [apply A1; auto|apply A2; lia].
  - intros i Hi. assert (G : forall j, j < length b -> exists q, q < length a /\ alike (at_ a q) (at_ b j)).
    { intros j Hj. destruct (Compare_dec.le_lt_dec (length a) j) as [Q|Q]; [apply B1; lia|exists j; auto]. }
    destruct (Compare_dec.le_lt_dec (length b) i) as [Q|Q].
    + destruct (B2 i ltac:(lia)) as (j & Hj & Aj). destruct (G j Hj) as (q & Hq & Aq). exists q. split; auto. eapply alike_trans; eauto.
    + destruct (G i Q) as (q & Hq & Aq). exists q. split; auto. eapply alike_trans; [exact Aq|apply A2; auto].
Qed.
Lemma moved_upd : forall h i k, i < length h -> moved_on h (upd h i (set_pride (at_ h i) k)).
Proof.
  intros h i k Hi. split; [rewrite upd_length; auto|]. split; [|intros j Hj; rewrite upd_length in Hj; lia]. intros j Hj. destruct (Nat.eq_dec i j) as [<-|N]; [rewrite at_upd_same by auto; repeat split|]. rewrite at_upd_other by auto. apply alike_refl.
Qed.
Lemma moved_add : forall h i k, i < length h -> moved_on h (h ++ [set_pride (at_ h i) k]).
Proof.
  intros h i k Hi. split; [rewrite app_length; lia|]. split; [intros j Hj; rewrite at_app1 by auto; apply alike_refl|]. intros j Hj. rewrite app_length in Hj. cbn in Hj. assert (j = length h) by lia. subst j. exists i. split; auto.
  unfold at_ at 2. rewrite app_nth2 by lia. rewrite Nat.sub_diag. repeat split.
Qed.
Lemma Store_moved : forall l h h', Store l h -> moved_on h h' -> Store l h'.
Proof.
  intros l h h' Hs (L & A & B). apply Forall_forall. intros a Ha. destruct (In_nth _ _ lion0 Ha) as (i & Hi & <-). fold (at_ h' i). destruct (Compare_dec.le_lt_dec (length h) i) as [Q|Q].
  - destruct (B i ltac:(lia)) as (j & Hj & E1 & E2 & E3 & E4 & _). eapply okl_alike; eauto. apply Store_at; auto.
  - destruct (A i Q) as (E1 & E2 & E3 & E4 & _). eapply okl_alike; eauto. apply Store_at; auto.
Qed.
Lemma Ids_moved : forall h h' ids, Ids h ids -> moved_on h h' -> Ids h' ids.
Proof. intros h h' ids H (L & _). eapply Ids_len; eauto. Qed.
Lemma w_at_row_x : forall rows i f (Q : list lrow -> elog -> Prop) l, K_exn K EIndex -> (forall rows', length rows' = length rows -> Q rows' l) -> wp K (at_row rows i f) Q l.
Proof.
  intros rows i f Q l Hx HQ. unfold at_row, py_ix. cbv zeta. apply wp_bind. destruct (_ && _); [|exact Hx]. apply w_done. apply w_done. apply HQ. apply upd_length.
Qed.
Lemma w_scan_x : forall h moved f n pos (Q : unit -> elog -> Prop) l, K_exn K EIndex -> Q tt l -> wp K (lo_scan h moved f pos n) Q l.
Proof.
  intros h moved f. induction n as [|n IH]; intros pos Q l Hx HQ; cbn [lo_scan]; [apply w_done; auto|]. apply wp_bind. unfold py_ix. cbv zeta. destruct ((0 <=? if _ : bool then _ else _)%Z && _); [|exact Hx]. apply w_done. destruct (_ && _); [apply w_done; auto|apply IH; auto].
Qed.
Lemma w_defense_x : forall rows pop h (Q : list lion * list nat * list lrow -> elog -> Prop) l, K_exn K EIndex -> Ids h pop ->
  (forall h' pop' rows', moved_on h h' -> Ids h' pop' -> Q (h', pop', rows') l) -> wp K (lo_defense F rows pop h) Q l.
Proof.
  intros rows pop h Q l Hx Hi HQ. unfold lo_defense. set (sp := map (lo_expel h) (combine (pride_rows rows) (prides rows pop))).
  assert (Isp : forall sl, In sl sp -> forall i, In i (fst sl) \/ In i (snd sl) -> In i pop).
  { intros sl Hsl i H. apply in_map_iff in Hsl. destruct Hsl as ([r pride] & <- & Hrp). apply in_combine_r in Hrp. eapply prides_in; [exact Hrp|]. cbn [lo_expel fst snd] in H. set (ms := sort_desc _ _) in H.
    assert (Hm : forall j, In j ms -> In j pride) by (intros j Hj; apply (Permutation_in j (Permutation_sym (sort_desc_perm _ _ _))) in Hj; eapply males_in; eauto).
    destruct H as [H|H]; [apply in_app_or in H; destruct H as [H|H]; [eapply females_in; eauto|apply from_z_in in H; auto]|apply take_z_In in H; auto]. }
  assert (Icc : forall (f : list nat * list nat -> list nat), (forall sl i, In i (f sl) -> In i (fst sl) \/ In i (snd sl)) -> Ids h (concat (map f sp))).
  { intros f Hf. eapply Ids_sub; [exact Hi|]. intros i H. apply in_concat in H. destruct H as (ids & H1 & H2). apply in_map_iff in H1. destruct H1 as (sl & <- & Hsl). eapply Isp; eauto. }
  apply wp_bind. apply (w_folds _ _ _ _ (fun _ _ _ _ _ => True) (fun s l1 => let '(h1, rows1, moved) := s in l1 = l /\ moved_on h h1 /\ Ids h1 moved)).
  - split; auto. split; [apply moved_refl|]. apply Forall_app. split; [apply Icc; auto|]. eapply Ids_sub; [exact Hi|]. intros i. apply from_z_in.
  - intros i [[h1 rows1] moved] l1 Hin (-> & M1 & I1). unfold lo_leave. apply wp_bind. apply w_at_row_x; auto. intros rows2 _. apply wp_bind. apply w_at_row_x; auto. intros rows3 _. apply w_done. split; auto. split; auto.
    assert (Li : i < length h1) by (destruct M1 as (L & _); eapply Nat.lt_le_trans; [|exact L]; eapply Ids_in; [apply (Icc snd); auto|exact Hin]). assert (M2 := moved_upd h1 i (-1)%Z Li). split; [eapply moved_trans; eauto|].
    apply Forall_app. split; [eapply Ids_moved; eauto|]. constructor; [rewrite upd_length; auto|constructor].
  - intros [[h1 rows1] moved] l1 _ (-> & M1 & I1). apply wp_bind. apply (w_mapM_rel _ _ _ (fun _ _ => True)); [|intros ys _; apply w_done; auto].
    intros i Q' _ HQ'. unfold lo_attack. apply wp_bind. apply w_random_vec. intros ms _. apply wp_bind. apply (w_folds _ _ _ _ (fun _ _ _ _ _ => True) (fun _ l1 => l1 = l)); auto.
    + intros [r m] ix l1 _ ->. apply wp_bind. destruct (fltb _ _); [apply w_scan_x; auto; apply w_done; auto|]. apply w_done. apply w_done. auto.
    + intros s' l1 _ ->. apply w_done. auto.
Qed.
Lemma w_migration_x : forall rows pop h (Q : list lion * list nat * list lrow -> elog -> Prop) l, K_exn K EIndex -> K_exn K EValue -> Ids h pop ->
  (forall h' pop' rows', moved_on h h' -> Ids h' pop' -> Q (h', pop', rows') l) -> wp K (lo_migration F p rows pop h) Q l.
Proof.
  intros rows pop h Q l Hx Hv Hi HQ. unfold lo_migration. apply wp_bind. apply (w_mapM_rel _ _ _ (fun (rp : lrow * list nat) (sl : list nat * list nat) => forall i, In i (fst sl) \/ In i (snd sl) -> In i (snd rp))).
  { intros [r pride] Q' _ HQ'. unfold lo_emigrate. apply wp_bind. apply w_py_round; auto. intros k _. apply wp_bind.
    assert (Gm : forall (Q1 : list bool -> elog -> Prop), (forall m, Q1 m l) -> wp K (lo_mask (lr_f r) (lr_ef r + k)) Q1 l).
    { intros Q1 H1. unfold lo_mask. destruct (_ <? 0)%Z; [exact Hv|]. apply w_shuffled. auto. }
    apply Gm. intros mask. apply wp_bind. apply (w_mapM_rel _ _ _ (fun _ _ => True)); [intros; apply w_nthP_x; auto|]. intros ms _. apply w_done. apply HQ'. cbn [fst snd]. intros i H.
    assert (Hc : forall f, In i (map fst (filter f (combine (females h pride) ms))) -> In i pride).
    { intros f Hf. apply in_map_iff in Hf. destruct Hf as ([a b] & <- & Hf). apply filter_In in Hf. destruct Hf as [Hf _]. apply in_combine_l in Hf. eapply females_in; eauto. }
    destruct H as [H|H]; [apply in_app_or in H; destruct H as [H|H]; [eapply males_in; eauto|]|]; eapply Hc; eauto. }
  intros sl Hsl. assert (Icc : forall (f : list nat * list nat -> list nat), (forall q i, In i (f q) -> In i (fst q) \/ In i (snd q)) -> Ids h (concat (map f sl))).
  { intros f Hf. eapply Ids_sub; [exact Hi|]. intros i H. apply in_concat in H. destruct H as (ids & H1 & H2). apply in_map_iff in H1. destruct H1 as (q & <- & Hq).
    assert (X : exists rp, In rp (combine (pride_rows rows) (prides rows pop)) /\ forall i, In i (fst q) \/ In i (snd q) -> In i (snd rp)) by (clear - Hsl Hq; induction Hsl; [destruct Hq|]; destruct Hq as [<-|Hq]; [eexists; split; [left; reflexivity|auto]|destruct IHHsl as (rp & R1 & R2); auto; exists rp; split; auto; right; auto]).
    destruct X as ([r pride] & R1 & R2). apply in_combine_r in R1. eapply prides_in; [exact R1|]. apply R2. apply Hf. exact H2. }
  apply wp_bind. apply (w_folds _ _ _ _ (fun _ _ _ _ _ => True) (fun s l1 => let '(h1, rows1, moved) := s in l1 = l /\ moved_on h h1 /\ Ids h1 moved)).
  - split; auto. split; [apply moved_refl|]. apply Forall_app. split; [apply Icc; auto|]. eapply Ids_sub; [exact Hi|]. intros i. apply from_z_in.
  - intros i [[h1 rows1] moved] l1 Hin (-> & M1 & I1). unfold lo_emigrant. apply wp_bind. apply w_at_row_x; auto. intros rows2 _. apply wp_bind. apply w_at_row_x; auto. intros rows3 _. apply w_done. split; auto. split; auto.
    assert (Li : i < length h1) by (destruct M1 as (L & _); eapply Nat.lt_le_trans; [|exact L]; eapply Ids_in; [apply (Icc snd); auto|exact Hin]). assert (M2 := moved_add h1 i (-1)%Z Li). split; [eapply moved_trans; eauto|].
    apply Forall_app. split; [eapply Ids_moved; eauto|]. constructor; [rewrite app_length; cbn; lia|constructor].
  - intros [[h1 rows1] moved] l1 _ (-> & M1 & I1). set (spots := fold_right _ _ _). set (tail := from_z _ moved). set (fs := sort_on _ _).
    assert (It : Ids h1 tail) by (eapply Ids_sub; [exact I1|]; intros i; apply from_z_in).
    assert (Ifs : Ids h1 fs) by (eapply Ids_sub; [exact It|]; intros i H; apply sort_on_In in H; eapply females_in; eauto).
    apply wp_bind. apply w_shuffled. intros movers Pm. assert (Im : Ids h1 movers) by (eapply Ids_sub; [exact Ifs|]; intros i H; apply (Permutation_in i (Permutation_sym Pm)) in H; apply take_z_In in H; auto).
    apply wp_bind. apply (w_folds _ _ _ _ (fun _ _ _ _ _ => True) (fun s l1 => let '(h2, rows2, final, ip, jf) := s in l1 = l /\ moved_on h1 h2 /\ Ids h2 final)).
    + split; auto. split; [apply moved_refl|constructor].
    + intros k [[[[h2 rows2] final] ip] jf] l1 _ (-> & M2 & I2). unfold lo_assemble1. apply wp_bind.
      apply (w_folds _ _ _ _ (fun _ _ _ _ _ => True) (fun s l1 => let '(h3, rows3, final3) := s in l1 = l /\ moved_on h1 h3 /\ Ids h3 final3)).
      * split; auto. split; auto. apply Forall_app. split; auto. eapply Ids_sub; [eapply Ids_moved; [exact I1|exact M2]|]. intros i. apply slice_in.
      * intros i [[h3 rows3] final3] l1 Hin (-> & M3 & I3). unfold lo_immigrant. apply wp_bind. apply w_at_row_x; auto. intros rows4 _. apply wp_bind. apply w_at_row_x; auto. intros rows5 _. apply w_done. split; auto. split; auto.
        assert (Li : i < length h3) by (destruct M3 as (L & _); eapply Nat.lt_le_trans; [|exact L]; eapply Ids_in; [exact Im|]; eapply slice_in; eauto). assert (M4 := moved_add h3 i (Z.of_nat k) Li). split; [eapply moved_trans; eauto|].
        apply Forall_app. split; [eapply Ids_moved; eauto|]. constructor; [rewrite app_length; cbn; lia|constructor].
      * intros [[h3 rows3] final3] l1 _ (-> & M3 & I3). apply w_done. auto.
    + intros [[[[h2 rows2] final] ip] jf] l1 _ (-> & M2 & I2). apply w_done. apply HQ; [eapply moved_trans; eauto|]. apply Forall_app. split; auto.
      apply Forall_app. split; (eapply Ids_moved; [|exact M2]); [eapply Ids_sub; [exact Ifs|]; intros i; apply from_z_in|eapply Ids_sub; [exact It|]; intros i; apply males_in].
Qed.
(** data_correction *)
Lemma correct_len : forall pop h, length (lo_correct pop h) = length h.
Proof. induction pop as [|i pop IH]; intros h; auto. unfold lo_correct in *. cbn [fold_left]. rewrite IH. apply upd_length. Qed.
Definition corrected (a b : lion) : Prop :=
  b = {| l_x := l_x a; l_f := l_f a; l_male := l_male a; l_pride := l_pride a; l_group := l_group a; l_cx := l_cx a; l_cf := l_cf a;
         l_prev := if fltb (l_f a) (l_prev a) then l_f a else l_prev a; l_imp := fltb (l_f a) (l_prev a) |}.
Lemma correct_at : forall pop h, NoDup pop -> Ids h pop -> forall i, (In i pop -> corrected (at_ h i) (at_ (lo_correct pop h) i)) /\ (~ In i pop -> at_ (lo_correct pop h) i = at_ h i).
Proof.
  induction pop as [|j pop IH]; intros h ND Hi i; [split; [intros []|auto]|]. inversion ND as [|? ? N1 N2]; subst. inversion Hi as [|? ? I1 I2]; subst. unfold lo_correct. cbn [fold_left]. fold (lo_correct pop (lo_correct1 h j)).
  assert (I3 : Ids (lo_correct1 h j) pop) by (eapply Ids_len; [exact I2|unfold lo_correct1; rewrite upd_length; auto]). destruct (IH _ N2 I3 i) as [G1 G2].
  assert (C1 : corrected (at_ h j) (at_ (lo_correct1 h j) j)) by (unfold lo_correct1; rewrite at_upd_same by auto; unfold corrected; destruct (fltb (l_f (at_ h j)) (l_prev (at_ h j))); auto).
  assert (C2 : i <> j -> at_ (lo_correct1 h j) i = at_ h i) by (intros N; apply at_upd_other; auto). split.
  - intros [<-|H]; [rewrite G2 by auto; exact C1|]. destruct (Nat.eq_dec i j) as [->|N]; [contradiction|]. rewrite <- C2 by auto. auto.
  - intros H. rewrite G2 by (intros Z; apply H; right; auto). apply C2. intros ->. apply H. left; auto.
Qed.
(** without knowing that nobody occurs twice *)
Lemma correct_alike : forall pop h i, let a := at_ h i in let b := at_ (lo_correct pop h) i in l_x b = l_x a /\ l_f b = l_f a /\ l_cx b = l_cx a /\ l_cf b = l_cf a.
Proof.
  induction pop as [|j pop IH]; intros h i; cbv zeta; auto. unfold lo_correct. cbn [fold_left]. fold (lo_correct pop (lo_correct1 h j)). destruct (IH (lo_correct1 h j) i) as (E1 & E2 & E3 & E4). rewrite E1, E2, E3, E4. clear.
  unfold lo_correct1. destruct (Compare_dec.le_lt_dec (length h) j) as [L|L].
  - assert (X : forall a, upd h j a = h) by (intros a; clear - L; revert j L; induction h as [|b h IH]; intros [|j] L; cbn in *; auto; [lia|]; f_equal; apply IH; lia). rewrite X. auto.
  - destruct (Nat.eq_dec j i) as [->|N]; [rewrite at_upd_same by auto|rewrite at_upd_other by auto; auto]. destruct (fltb _ _); auto.
Qed.
Lemma Store_correct : forall l pop h, Store l h -> Store l (lo_correct pop h).
Proof.
  intros l pop h H. apply Forall_forall. intros a Ha. destruct (In_nth _ _ lion0 Ha) as (i & Hi & <-). rewrite correct_len in Hi. destruct (correct_alike pop h i) as (E1 & E2 & E3 & E4). eapply okl_alike; eauto. apply Store_at; auto.
Qed.
Lemma equil_in : forall rows pop h i, In i (fst (lo_equilibrium rows pop h)) -> In i pop.
Proof.
  intros rows pop h i H. cbn [lo_equilibrium fst] in H. apply in_app_or in H. destruct H as [H|H]; [apply take_z_In in H; auto|]. apply in_app_or in H. destruct H as [H|H]; apply from_z_in in H; apply (Permutation_in i (Permutation_sym (sort_desc_perm _ _ _))) in H.
  - apply males_in in H. eapply from_z_in; eauto.
  - apply females_in in H. eapply from_z_in; eauto.
Qed.

(** ** The prides *)
Definition counts (h : list lion) (ids : list nat) (r : lrow) : Prop :=
  lr_n r = Z.of_nat (length ids) /\ lr_f r = Z.of_nat (length (females h ids)) /\ lr_m r = Z.of_nat (length (males h ids)).
Record Lay (h : list lion) (pop : list nat) (ps : list (list nat)) (nom : list nat) (rs : list lrow) (rn : lrow) : Prop := {
  la_pop : pop = concat ps ++ nom;
  la_nd : NoDup pop;
  la_ids : Ids h pop;
  la_ps : Forall2 (counts h) ps rs;
  la_nom : counts h nom rn;
  la_tag : forall k i, In i (nth k ps []) -> l_pride (at_ h i) = Z.of_nat k;
  la_tagn : forall i, In i nom -> l_pride (at_ h i) = (-1)%Z }.
Lemma clip_in : forall n i, (0 <= i <= Z.of_nat n)%Z -> clip_ix n i = Z.to_nat i.
Proof. clear. intros n i H. unfold clip_ix. destruct (i <? 0)%Z eqn:B; [apply Z.ltb_lt in B; lia|]. rewrite Z.min_l by lia. reflexivity. Qed.
Lemma slice_mid : forall A (a b c : list A) i s, i = Z.of_nat (length a) -> s = Z.of_nat (length b) -> slice i (i + s) (a ++ b ++ c) = b.
Proof. clear.
  intros A a b c i s -> ->. unfold slice. rewrite !clip_in by (rewrite !app_length; lia). replace (Z.to_nat _ - Z.to_nat _) with (length b) by lia. rewrite Nat2Z.id.
  rewrite skipn_app, skipn_all, Nat.sub_diag. cbn [app skipn]. rewrite firstn_app, firstn_all, Nat.sub_diag. cbn [firstn]. apply app_nil_r.
Qed.
Lemma from_mid : forall A (a b : list A) i, i = Z.of_nat (length a) -> from_z i (a ++ b) = b.
Proof. clear. intros A a b i ->. unfold from_z. rewrite clip_in by (rewrite app_length; lia). rewrite Nat2Z.id, skipn_app, skipn_all, Nat.sub_diag. reflexivity. Qed.
Lemma from_end : forall A (a b : list A) i, i = Z.of_nat (length b) -> b <> [] -> from_z (- i) (a ++ b) = b.
Proof. clear.
  intros A a b i -> Hb. unfold from_z, clip_ix. assert (0 < length b) by (destruct b; [congruence|cbn; lia]). destruct (_ <? 0)%Z eqn:B; [|apply Z.ltb_ge in B; lia].
  replace (Z.to_nat _) with (length a) by (rewrite app_length; lia). rewrite skipn_app, skipn_all, Nat.sub_diag. reflexivity.
Qed.
Lemma cut_concat : forall A (ps : list (list A)) rs pre rest i, Forall2 (fun ids r => lr_n r = Z.of_nat (length ids)) ps rs -> i = Z.of_nat (length pre) ->
  cut i (map lr_n rs) (pre ++ concat ps ++ rest) = ps.
Proof. clear.
  intros A ps rs pre rest i H. revert pre i. induction H as [|ids r ps rs H1 H2 IH]; intros pre i ->; [reflexivity|]. cbn [map cut concat]. rewrite <- app_assoc. rewrite slice_mid by auto. f_equal.
  rewrite (app_assoc pre). apply IH. rewrite app_length. lia.
Qed.
Lemma rl_app : forall rs (rn : lrow), pride_rows (rs ++ [rn]) = rs.
Proof. intros. apply removelast_last. Qed.
Lemma lr_app : forall rs (rn : lrow), last_row (rs ++ [rn]) = rn.
Proof. intros. apply last_last. Qed.
Lemma lay_prides : forall h pop ps nom rs rn, Lay h pop ps nom rs rn -> prides (rs ++ [rn]) pop = ps.
Proof.
  intros h pop ps nom rs rn H. unfold prides. rewrite rl_app, (la_pop _ _ _ _ _ _ H). apply (cut_concat _ _ _ []); auto. eapply F2_impl; [|apply (la_ps _ _ _ _ _ _ H)]. intros a b Hc. apply Hc.
Qed.
Lemma lay_len : forall h pop ps nom rs rn, Lay h pop ps nom rs rn -> (Z.of_nat (length pop) - lr_n rn = Z.of_nat (length (concat ps)))%Z.
Proof. intros h pop ps nom rs rn [-> _ _ _ (Hn & _) _ _]. rewrite app_length. lia. Qed.
Lemma lay_nomads : forall h pop ps nom rs rn, Lay h pop ps nom rs rn -> nom <> [] -> from_z (- lr_n (last_row (rs ++ [rn]))) pop = nom.
Proof. intros h pop ps nom rs rn H Hn. rewrite lr_app, (la_pop _ _ _ _ _ _ H). apply from_end; auto. apply (la_nom _ _ _ _ _ _ H). Qed.
Lemma lay_nomads2 : forall h pop ps nom rs rn, Lay h pop ps nom rs rn -> from_z (Z.of_nat (length pop) - lr_n (last_row (rs ++ [rn]))) pop = nom.
Proof. intros h pop ps nom rs rn H. rewrite lr_app, (lay_len _ _ _ _ _ _ H), (la_pop _ _ _ _ _ _ H). apply from_mid. reflexivity. Qed.
(** counting *)
Lemma filter_ext_in' : forall A (f g : A -> bool) xs, (forall x, In x xs -> f x = g x) -> filter f xs = filter g xs.
Proof. intros. apply filter_ext_in; auto. Qed.
Lemma males_same : forall h h' ids, (forall i, In i ids -> l_male (at_ h' i) = l_male (at_ h i)) -> males h' ids = males h ids.
Proof. intros h h' ids H. apply filter_ext_in. intros i Hi. auto. Qed.
Lemma females_same : forall h h' ids, (forall i, In i ids -> l_male (at_ h' i) = l_male (at_ h i)) -> females h' ids = females h ids.
Proof. intros h h' ids H. apply filter_ext_in. intros i Hi. rewrite H; auto. Qed.
Lemma counts_same : forall h h' ids r, (forall i, In i ids -> l_male (at_ h' i) = l_male (at_ h i)) -> counts h ids r -> counts h' ids r.
Proof. intros h h' ids r H (H1 & H2 & H3). unfold counts. rewrite (males_same h h'), (females_same h h') by auto. auto. Qed.
Lemma males_app : forall h a b, males h (a ++ b) = males h a ++ males h b.
Proof. intros. apply filter_app. Qed.
Lemma females_app : forall h a b, females h (a ++ b) = females h a ++ females h b.
Proof. intros. apply filter_app. Qed.
Lemma sexes : forall h ids, length ids = length (females h ids) + length (males h ids).
Proof. clear. intros h. induction ids as [|i ids IH]; auto. unfold females, males in *. cbn [filter]. destruct (l_male (at_ h i)); cbn [negb length]; lia. Qed.
Lemma In_concat_nth : forall A (ps : list (list A)) i, In i (concat ps) -> exists k, k < length ps /\ In i (nth k ps []).
Proof. intros A ps i H. apply in_concat in H. destruct H as (ids & H1 & H2). destruct (In_nth _ _ [] H1) as (k & Hk & <-). eauto. Qed.
Lemma nth_In_concat : forall A (ps : list (list A)) k i, In i (nth k ps []) -> In i (concat ps).
Proof. intros A ps k i H. destruct (Compare_dec.le_lt_dec (length ps) k) as [L|L]; [rewrite nth_overflow in H by auto; destruct H|]. apply in_concat. exists (nth k ps []). split; auto. apply nth_In; auto. Qed.
Lemma lay_ids_ps : forall h pop ps nom rs rn, Lay h pop ps nom rs rn -> forall i, In i (concat ps) \/ In i nom -> In i pop.
Proof. intros h pop ps nom rs rn H i Hi. rewrite (la_pop _ _ _ _ _ _ H). apply in_or_app. auto. Qed.
(** changes of the store that keep sex and pride keep the layout *)
Lemma lay_same : forall h h' pop ps nom rs rn, length h <= length h' -> (forall i, In i pop -> l_male (at_ h' i) = l_male (at_ h i) /\ l_pride (at_ h' i) = l_pride (at_ h i)) ->
  Lay h pop ps nom rs rn -> Lay h' pop ps nom rs rn.
Proof.
  intros h h' pop ps nom rs rn L E H. assert (Ii := lay_ids_ps _ _ _ _ _ _ H). destruct H as [H1 H2 H3 H4 H5 H6 H7]. constructor; auto.
  - eapply Ids_len; eauto.
  - assert (Ic : forall i, In i (concat ps) -> In i pop) by auto. clear - H4 Ic E. revert Ic. induction H4 as [|ids r ps rs G1 G2 IH]; intros Ic; constructor.
    + eapply counts_same; [|exact G1]. intros i Hi. apply E. apply Ic. cbn [concat]. apply in_or_app. auto.
    + apply IH. intros i Hi. apply Ic. cbn [concat]. apply in_or_app. auto.
  - eapply counts_same; [|exact H5]. intros i Hi. apply E. auto.
  - intros k i Hi. rewrite (proj2 (E i (Ii i (or_introl (nth_In_concat _ _ _ _ Hi))))). auto.
  - intros i Hi. rewrite (proj2 (E i (Ii i (or_intror Hi)))). auto.
Qed.
Lemma lay_kin : forall h h' pop ps nom rs rn, kin h h' -> Lay h pop ps nom rs rn -> Lay h' pop ps nom rs rn.
Proof. intros h h' pop ps nom rs rn [L H]. apply lay_same; [lia|]. intros i _. split; apply H. Qed.
(** the wanted numbers of females and males *)
Definition excess0 (r : lrow) (t : Z * Z) : Prop := (lr_f r, lr_m r) = t.
Definition excess (r : lrow) (t : Z * Z) : Prop := (lr_f r - lr_ef r, lr_m r - lr_em r)%Z = t /\ (0 <= lr_ef r)%Z /\ (0 <= lr_em r)%Z.
(** mating *)
Lemma folds_born : forall ms pr has fs s l s' l', folds (mates ms pr has) fs s l s' l' ->
  exists new, fst s' = fst s ++ new /\ snd s' = snd s ++ seq (length (fst s)) (length new) /\
    Forall (fun b => l_pride b = pr /\ l_prev b = fadd F (l_f b) (flit F 1 1) /\ l_imp b = true) new.
Proof.
  intros ms pr has fs s l s' l' H. induction H as [s l|fem fs [h cubs] l [h1 cubs1] l1 [h2 cubs2] l2 H1 H2 IH]; [exists []; rewrite !app_nil_r; auto|].
  destruct IH as (n2 & E1 & E2 & E3). destruct H1 as (r & n1 & _ & F1 & F2 & F3). cbn [fst snd] in *. exists (n1 ++ n2). subst. rewrite !app_length, seq_app, !app_assoc. split; auto. split; auto. apply Forall_app. split; auto.
  destruct (fltb r (lo_matef p)); [|destruct F3 as [-> _]; constructor]. unfold offspring in F3. destruct (length ms =? 0); [destruct F3 as [-> _]; constructor|].
  destruct F3 as (is & beta & z1 & z2 & g & b1 & b2 & l3 & _ & _ & _ & _ & _ & (y1 & f1' & _ & _ & ->) & (y2 & f2' & _ & _ & ->) & ->). constructor; [cbn; auto|]. constructor; [cbn; auto|constructor].
Qed.
Lemma counts_cubs : forall h h' ids cubs r r', counts h ids r -> (forall i, In i ids -> l_male (at_ h' i) = l_male (at_ h i)) -> mated_row h' cubs r r' ->
  counts h' (ids ++ cubs) r' /\ (lr_f r' - lr_ef r' = lr_f r)%Z /\ (lr_m r' - lr_em r' = lr_m r)%Z /\ (0 <= lr_ef r')%Z /\ (0 <= lr_em r')%Z.
Proof.
  intros h h' ids cubs r r' (H1 & H2 & H3) E ->. cbn. unfold counts. rewrite females_app, males_app, !app_length. rewrite (males_same h h' ids), (females_same h h' ids) by auto. assert (S := sexes h' cubs). cbn [lr_n lr_f lr_m]. lia.
Qed.
Lemma at_seq_new : forall h new i, In i (seq (length h) (length new)) -> In (at_ (h ++ new) i) new.
Proof. intros h new i H. apply in_seq in H. unfold at_. rewrite app_nth2 by lia. apply nth_In. lia. Qed.
Lemma mating_prides : forall ps rs k0 h new rows l h1 new1 rows1 l1,
  folds mated_pride (combine (seq k0 (length rs)) (combine rs ps)) (h, new, rows) l (h1, new1, rows1) l1 ->
  Forall2 (counts h) ps rs -> Forall (fun r => lr_f r <> 0%Z) rs -> Ids h (concat ps) -> NoDup (concat ps) ->
  exists ps' rs', new1 = new ++ concat ps' /\ rows1 = rows ++ rs' /\ grows h h1 /\ Forall2 (counts h1) ps' rs' /\
    Forall2 (fun r r' => excess r' (lr_f r, lr_m r)) rs rs' /\ NoDup (concat ps') /\
    (forall j i, In i (nth j ps' []) -> In i (nth j ps []) \/ length h <= i < length h1 /\ l_pride (at_ h1 i) = Z.of_nat (k0 + j)) /\
    Forall2 (fun ids ids' => exists cubs, ids' = ids ++ cubs) ps ps'.
Proof.
  induction ps as [|ids ps IH]; intros rs k0 h new rows l h1 new1 rows1 l1 H Hc Hf Hi ND; inversion Hc as [|? r ? rs0 C1 C2]; subst; clear Hc; cbn [length seq combine] in H.
  - inversion H; subst. exists [], []. rewrite !app_nil_r. split; auto. split; auto. split; [apply grows_refl|]. split; [constructor|]. split; [constructor|]. split; [constructor|]. split; [intros [|j] i []|constructor].
  - inversion H as [|? ? ? ? s1 l1' ? ? H1 H2]; subst. clear H. destruct s1 as [[h2 new2] rows2]. inversion Hf as [|? ? Hr Hf']; subst. unfold mated_pride in H1. assert (Er : (lr_f r =? 0)%Z = false) by (apply Z.eqb_neq; auto). rewrite Er in H1.
    destruct H1 as (cubs & r' & H1 & -> & Mr & ->). destruct (folds_born _ _ _ _ _ _ _ _ H1) as (nw & E1 & E2 & E3). cbn [fst snd app] in E1, E2. subst h2 cubs.
    cbn [concat] in Hi, ND. assert (Hi1 : Ids h ids) by (apply Forall_app in Hi; apply Hi). assert (Hi2 : Ids h (concat ps)) by (apply Forall_app in Hi; apply Hi).
    assert (Lg : length h <= length (h ++ nw)) by (rewrite app_length; lia).
    assert (S1 : forall i, i < length h -> at_ (h ++ nw) i = at_ h i) by (intros; apply at_app1; auto).
    destruct (counts_cubs h (h ++ nw) ids _ r r' C1 ltac:(intros i Q; rewrite S1; auto; exact (Ids_in _ _ _ Hi1 Q)) Mr) as (D1 & D2 & D3 & D4 & D5).
    assert (C2' : Forall2 (counts (h ++ nw)) ps rs0).
    { clear - C2 Hi2 S1. revert Hi2. induction C2 as [|a b x y G1 G2 IH]; intros Hi2; constructor.
      - eapply counts_same; [|exact G1]. intros i Q. rewrite S1; auto. apply Forall_app in Hi2. exact (Ids_in _ _ _ (proj1 Hi2) Q).
      - apply IH. apply Forall_app in Hi2. apply Hi2. }
    assert (Hi3 : Ids (h ++ nw) (concat ps)) by (eapply Ids_len; eauto).
    assert (ND2 : NoDup (concat ps)) by (apply nd_app in ND; apply ND).
    destruct (IH _ _ _ _ _ _ _ _ _ _ H2 C2' Hf' Hi3 ND2) as (ps' & rs' & G1 & G2 & G3 & G4 & G5 & G6 & G7 & G8). destruct G3 as (n3 & ->).
    exists ((ids ++ seq (length h) (length nw)) :: ps'), (r' :: rs'). cbn [concat]. split; [rewrite G1, <- !app_assoc; auto|]. split; [rewrite G2, <- app_assoc; auto|].
    split; [exists (nw ++ n3); symmetry; apply app_assoc|]. split.
    { constructor; auto. eapply counts_same; [|exact D1]. intros i Q. rewrite at_app1; auto. apply in_app_or in Q. rewrite app_length. destruct Q as [Q|Q]; [apply (Ids_in _ _ _ Hi1) in Q; lia|apply in_seq in Q; lia]. }
    split; [constructor; auto; split; [rewrite D2, D3; auto|auto]|]. split; [|split].
    + apply nd_app in ND. destruct ND as (NDi & _ & Dis).
      assert (Loc : forall i, In i (concat ps') -> In i (concat ps) \/ length (h ++ nw) <= i).
      { intros i Q. destruct (In_concat_nth _ _ _ Q) as (k & _ & Qk). destruct (G7 k i Qk) as [Q1|[Q1 _]]; [left; eapply nth_In_concat; eauto|right; lia]. }
      rewrite <- app_assoc. apply nd_app. split; auto. split.
      * apply nd_app. split; [apply seq_NoDup|]. split; auto. intros i Q1 Q2. apply in_seq in Q1. destruct (Loc i Q2) as [Q3|Q3]; [apply (Ids_in _ _ _ Hi2) in Q3; lia|rewrite app_length in Q3; lia].
      * intros i Q1 Q2. assert (Q0 := Ids_in _ _ _ Hi1 Q1). apply in_app_or in Q2. destruct Q2 as [Q2|Q2]; [apply in_seq in Q2; lia|]. destruct (Loc i Q2) as [Q3|Q3]; [eapply Dis; eauto|lia].
    + intros [|j] i Q; cbn [nth] in *.
      * apply in_app_or in Q. destruct Q as [Q|Q]; [left; auto|right]. assert (Q' := Q). apply in_seq in Q. split; [rewrite !app_length; lia|]. rewrite at_app1 by (rewrite app_length; lia).
        apply at_seq_new in Q'. rewrite (proj1 (proj1 (Forall_forall _ _) E3 _ Q')). f_equal. lia.
      * destruct (G7 j i Q) as [Q1|[Q1 Q2]]; [left; auto|right]. split; [lia|]. rewrite Q2. f_equal. lia.
    + constructor; auto. eauto.
Qed.
Lemma lay_mating : forall rs rn pop h l h' pop' rows' l' ps nom, all_mate (rs ++ [rn]) pop h l (h', pop', rows') l' -> Lay h pop ps nom rs rn -> nom <> [] -> Forall (fun r => lr_f r <> 0%Z) rs ->
  exists ps' nom' rs' rn', rows' = rs' ++ [rn'] /\ Lay h' pop' ps' nom' rs' rn' /\ Forall2 (fun r r' => excess r' (lr_f r, lr_m r)) rs rs' /\ excess rn' (lr_f rn, lr_m rn) /\
    Forall2 (fun ids ids' => exists cubs, ids' = ids ++ cubs) ps ps' /\ (exists cubs, nom' = nom ++ cubs).
Proof.
  intros rs rn pop h l h' pop' rows' l' ps nom (h1 & new & rows1 & l1 & cubs & r' & H1 & H2 & H3 & H4 & H5) HL Hn Hf. assert (E := lay_nomads _ _ _ _ _ _ HL Hn). unfold last_row in E. rewrite E in *. clear E.
  rewrite (lay_prides _ _ _ _ _ _ HL) in H1. rewrite removelast_last in H1. rewrite last_last in H3. assert (Ii := lay_ids_ps _ _ _ _ _ _ HL). destruct HL as [L1 L2 L3 L4 L5 L6 L7]. subst pop. apply nd_app in L2. destruct L2 as (N1 & N2 & N3).
  assert (I1 : Ids h (concat ps)) by (apply Forall_app in L3; apply L3). assert (I2 : Ids h nom) by (apply Forall_app in L3; apply L3).
  destruct (mating_prides _ _ _ _ _ _ _ _ _ _ _ H1 L4 Hf I1 N1) as (ps' & rs' & G1 & G2 & (n1 & ->) & G4 & G5 & G6 & G7 & G8). cbn [app] in G1, G2. subst new rows1.
  destruct (folds_born _ _ _ _ _ _ _ _ H2) as (n2 & E1 & E2 & E3). cbn [fst snd app] in E1, E2. subst h' cubs.
  assert (S1 : forall i, i < length h -> at_ ((h ++ n1) ++ n2) i = at_ h i) by (intros; rewrite !at_app1; auto; rewrite app_length; lia).
  destruct (counts_cubs h _ nom _ rn r' L5 ltac:(intros i Q; rewrite S1; auto; exact (Ids_in _ _ _ I2 Q)) H3) as (D1 & D2 & D3 & D4 & D5).
  assert (Loc : forall i, In i (concat ps') -> In i (concat ps) \/ length h <= i < length (h ++ n1)).
  { intros i Q. destruct (In_concat_nth _ _ _ Q) as (k & _ & Qk). destruct (G7 k i Qk) as [Q1|[Q1 _]]; [left; eapply nth_In_concat; eauto|right; lia]. }
  assert (Ip : Ids (h ++ n1) (concat ps')) by (apply Forall_forall; intros i Q; destruct (Loc i Q) as [Q1|Q1]; [apply (Ids_in _ _ _ I1) in Q1; rewrite app_length; lia|lia]).
  exists ps', (nom ++ seq (length (h ++ n1)) (length n2)), rs', r'. split; auto. split; [|split; [exact G5|split; [split; [rewrite D2, D3; auto|auto]|split; [exact G8|eauto]]]]. constructor.
  - exact H4.
  - rewrite H4. apply nd_app. split; auto. split.
    + apply nd_app. split; auto. split; [apply seq_NoDup|]. intros i Q1 Q2. apply (Ids_in _ _ _ I2) in Q1. apply in_seq in Q2. rewrite app_length in Q2. lia.
    + intros i Q1 Q2. apply in_app_or in Q2. destruct Q2 as [Q2|Q2]; [|apply in_seq in Q2; apply (Ids_in _ _ _ Ip) in Q1; lia]. destruct (Loc i Q1) as [Q3|Q3]; [eapply N3; eauto|apply (Ids_in _ _ _ I2) in Q2; lia].
  - rewrite H4. apply Forall_app. split; [eapply Ids_len; [exact Ip|rewrite (app_length (h ++ n1)); lia]|]. apply Forall_app. split; [eapply Ids_len; [exact I2|rewrite !app_length; lia]|].
    apply Forall_forall. intros i Q. apply in_seq in Q. rewrite (app_length (h ++ n1)). lia.
  - clear - G4 Ip. revert Ip. induction G4 as [|a b x y Q1 Q2 IH]; intros Ip; constructor.
    + eapply counts_same; [|exact Q1]. intros i Q. rewrite at_app1; auto. apply Forall_app in Ip. exact (Ids_in _ _ _ (proj1 Ip) Q).
    + apply IH. apply Forall_app in Ip. apply Ip.
  - exact D1.
  - intros k i Q. assert (Q0 := Ids_in _ _ _ Ip (nth_In_concat _ _ _ _ Q)). rewrite at_app1 by auto. destruct (G7 k i Q) as [Q1|[_ Q1]]; [|exact Q1]. rewrite at_app1; [auto|exact (Ids_in _ _ _ I1 (nth_In_concat _ _ _ _ Q1))].
  - intros i Q. apply in_app_or in Q. destruct Q as [Q|Q]; [rewrite S1 by exact (Ids_in _ _ _ I2 Q); auto|]. apply at_seq_new in Q. apply (proj1 (Forall_forall _ _) E3 _ Q).
Qed.

(** defense *)
Lemma upd_mid : forall A (pre post : list A) r x, upd (pre ++ r :: post) (length pre) x = pre ++ x :: post.
Proof. induction pre as [|a pre IH]; intros; cbn; [auto|rewrite IH; auto]. Qed.
Lemma nth_mid : forall A (pre post : list A) r x, nth (length pre) (pre ++ r :: post) x = r.
Proof. induction pre as [|a pre IH]; intros; cbn; auto. Qed.
Lemma w_at_row : forall pre r post f i (Q : list lrow -> elog -> Prop) l, i = Z.of_nat (length pre) -> Q (pre ++ f r :: post) l -> wp K (at_row (pre ++ r :: post) i f) Q l.
Proof.
  intros pre r post f i Q l -> HQ. unfold at_row, py_ix. cbv zeta. apply wp_bind. destruct (Z.of_nat (length pre) <? 0)%Z eqn:B; [apply Z.ltb_lt in B; lia|].
  assert (X : ((0 <=? Z.of_nat (length pre)) && (Z.of_nat (length pre) <? Z.of_nat (length (pre ++ r :: post))))%Z = true) by (rewrite app_length; cbn [length]; apply andb_true_iff; split; [apply Z.leb_le|apply Z.ltb_lt]; lia).
  rewrite X. apply w_done. apply w_done. rewrite Nat2Z.id, nth_mid, upd_mid. exact HQ.
Qed.
Lemma w_at_last : forall rs r f (Q : list lrow -> elog -> Prop) l, Q (rs ++ [f r]) l -> wp K (at_row (rs ++ [r]) (-1) f) Q l.
Proof.
  intros rs r f Q l HQ. unfold at_row, py_ix. cbv zeta. apply wp_bind. change (-1 <? 0)%Z with true. cbv iota.
  assert (X : ((0 <=? -1 + Z.of_nat (length (rs ++ [r]))) && (-1 + Z.of_nat (length (rs ++ [r])) <? Z.of_nat (length (rs ++ [r]))))%Z = true) by (rewrite app_length; cbn [length]; apply andb_true_iff; split; [apply Z.leb_le|apply Z.ltb_lt]; lia).
  rewrite X. apply w_done. apply w_done. replace (Z.to_nat _) with (length rs) by (rewrite app_length; cbn [length]; lia). rewrite nth_mid, upd_mid. exact HQ.
Qed.
Lemma row_m_add : forall a b r, row_m a (row_m b r) = row_m (b + a) r.
Proof. clear. intros. unfold row_m. cbn. f_equal; lia. Qed.
Lemma row_m_0 : forall r, row_m 0 r = r.
Proof. clear. intros []. unfold row_m. cbn. rewrite !Z.add_0_r. reflexivity. Qed.
Lemma row_f_add : forall a b r, row_f a (row_f b r) = row_f (b + a) r.
Proof. clear. intros. unfold row_f. cbn. f_equal; lia. Qed.
Lemma row_f_0 : forall r, row_f 0 r = r.
Proof. clear. intros []. unfold row_f. cbn. rewrite !Z.add_0_r. reflexivity. Qed.
(** the lions xs become nomads *)
Definition tagall (k : Z) (xs : list nat) (h : list lion) : list lion := fold_left (fun h i => upd h i (set_pride (at_ h i) k)) xs h.
Lemma tagall_len : forall k xs h, length (tagall k xs h) = length h.
Proof. intros k. induction xs as [|i xs IH]; intros h; auto. unfold tagall in *. cbn [fold_left]. rewrite IH. apply upd_length. Qed.
Lemma tagall_at : forall k xs h j, Ids h xs -> (In j xs -> at_ (tagall k xs h) j = set_pride (at_ h j) k) /\ (~ In j xs -> at_ (tagall k xs h) j = at_ h j).
Proof.
  intros k. induction xs as [|i xs IH]; intros h j Hi; [split; [intros []|auto]|]. inversion Hi as [|? ? I1 I2]; subst. unfold tagall. cbn [fold_left]. fold (tagall k xs (upd h i (set_pride (at_ h i) k))).
  assert (I3 : Ids (upd h i (set_pride (at_ h i) k)) xs) by (eapply Ids_len; [exact I2|rewrite upd_length; auto]). destruct (IH _ j I3) as [G1 G2]. destruct (in_dec Nat.eq_dec j xs) as [D|D].
  - split; [|intros N; exfalso; apply N; right; auto]. intros _. rewrite G1 by auto. destruct (Nat.eq_dec i j) as [<-|N]; [rewrite at_upd_same by auto; reflexivity|rewrite at_upd_other by auto; reflexivity].
  - rewrite G2 by auto. split.
    + intros [<-|Z]; [apply at_upd_same; auto|contradiction].
    + intros N. apply at_upd_other. intros ->. apply N. left; auto.
Qed.
Lemma tagall_app : forall k a b h, tagall k (a ++ b) h = tagall k b (tagall k a h).
Proof. intros. unfold tagall. apply fold_left_app. Qed.
Lemma wp_bind_inv : forall A B (q : prog A) (f : A -> prog B) (Q : B -> elog -> Prop) l, wp K (bind q f) Q l -> wp K q (fun a l' => wp K (f a) Q l') l.
Proof. clear. induction q; simpl; intros f Q l Hw; auto. destruct Hw as (H1 & H2 & H3). repeat split; auto. destruct (K_ref K); auto. Qed.
Lemma w_foldM_app : forall A S (f : S -> A -> prog S) xs ys s (Q : S -> elog -> Prop) l, wp K (foldM f xs s) (fun s' l' => wp K (foldM f ys s') Q l') l -> wp K (foldM f (xs ++ ys) s) Q l.
Proof.
  intros A S f. induction xs as [|x xs IH]; intros ys s Q l H; cbn [app foldM] in *; [exact H|]. apply wp_bind. apply wp_bind_inv in H. eapply wp_conseq; [exact H|]. intros s' l' _ H'. apply IH. exact H'.
Qed.
Lemma w_leaves1 : forall xs h pre r post rn moved (Q : list lion * list lrow * list nat -> elog -> Prop) l, NoDup xs -> Ids h xs -> (forall i, In i xs -> l_pride (at_ h i) = Z.of_nat (length pre)) ->
  Q (tagall (-1) xs h, pre ++ row_m (- Z.of_nat (length xs)) r :: post ++ [row_m (Z.of_nat (length xs)) rn], moved ++ xs) l ->
  wp K (foldM lo_leave xs (h, pre ++ r :: post ++ [rn], moved)) Q l.
Proof.
  induction xs as [|i xs IH]; intros h pre r post rn moved Q l ND Hi Ht HQ; cbn [foldM].
  - apply w_done. cbn [length] in HQ. rewrite app_nil_r in HQ. change (- Z.of_nat 0)%Z with 0%Z in HQ. change (Z.of_nat 0) with 0%Z in HQ. rewrite !row_m_0 in HQ. exact HQ.
  - inversion ND as [|? ? N1 N2]; subst. inversion Hi as [|? ? I1 I2]; subst. apply wp_bind. unfold lo_leave at 1. apply wp_bind. apply w_at_row; [apply Ht; left; auto|]. apply wp_bind.
    replace (pre ++ row_m (-1) r :: post ++ [rn]) with ((pre ++ row_m (-1) r :: post) ++ [rn]) by (rewrite <- app_assoc; reflexivity). apply w_at_last. apply w_done. rewrite <- app_assoc. cbn [app]. apply IH; auto.
    + eapply Ids_len; [exact I2|rewrite upd_length; auto].
    + intros j Hj. rewrite at_upd_other by (intros ->; contradiction). apply Ht. right; auto.
    + rewrite !row_m_add, <- app_assoc. cbn [app length] in *. rewrite Nat2Z.inj_succ in HQ. replace (-1 + - Z.of_nat (length xs))%Z with (- Z.succ (Z.of_nat (length xs)))%Z by lia. replace (1 + Z.of_nat (length xs))%Z with (Z.succ (Z.of_nat (length xs))) by lia. exact HQ.
Qed.
Lemma w_leaves : forall lvs rs h pre rn moved (Q : list lion * list lrow * list nat -> elog -> Prop) l, length lvs = length rs -> NoDup (concat lvs) -> Ids h (concat lvs) ->
  (forall j i, In i (nth j lvs []) -> l_pride (at_ h i) = Z.of_nat (length pre + j)) ->
  Q (tagall (-1) (concat lvs) h, pre ++ map2 (fun r xs => row_m (- Z.of_nat (length xs)) r) rs lvs ++ [row_m (Z.of_nat (length (concat lvs))) rn], moved ++ concat lvs) l ->
  wp K (foldM lo_leave (concat lvs) (h, pre ++ rs ++ [rn], moved)) Q l.
Proof.
  induction lvs as [|xs lvs IH]; intros [|r rs] h pre rn moved Q l L ND Hi Ht HQ; try discriminate.
  - cbn [concat foldM map2 length] in *. apply w_done. change (Z.of_nat 0) with 0%Z in HQ. rewrite row_m_0, app_nil_r in HQ. exact HQ.
  - cbn [concat map2 length] in *. apply nd_app in ND. destruct ND as (N1 & N2 & N3). assert (I1 : Ids h xs) by (apply Forall_app in Hi; apply Hi). assert (I2 : Ids h (concat lvs)) by (apply Forall_app in Hi; apply Hi).
    apply w_foldM_app. cbn [app]. apply w_leaves1; auto; [intros i Q1; rewrite (Ht 0 i Q1), Nat.add_0_r; auto|]. replace (pre ++ row_m (- Z.of_nat (length xs)) r :: rs ++ [row_m (Z.of_nat (length xs)) rn])
      with ((pre ++ [row_m (- Z.of_nat (length xs)) r]) ++ rs ++ [row_m (Z.of_nat (length xs)) rn]) by (rewrite <- app_assoc; reflexivity).
    apply IH; auto.
    + eapply Ids_len; [exact I2|rewrite tagall_len; auto].
    + intros j i Q1. destruct (tagall_at (-1) xs h i I1) as [_ G]. rewrite G by (intros Z; apply (N3 i Z); eapply nth_In_concat; eauto). rewrite (Ht (S j) i Q1), app_length. cbn [length]. f_equal. lia.
    + rewrite tagall_app in HQ. rewrite row_m_add, <- !app_assoc. cbn [app]. rewrite app_length, Nat2Z.inj_add in HQ. exact HQ.
Qed.
Lemma from_skip : forall A k (xs : list A), (0 <= k <= Z.of_nat (length xs))%Z -> from_z k xs = skipn (Z.to_nat k) xs.
Proof. clear. intros A k xs H. unfold from_z. rewrite clip_in; auto. Qed.
Lemma take_first : forall A k (xs : list A), (0 <= k)%Z -> take_z k xs = firstn (Z.to_nat k) xs.
Proof. clear. intros A k xs H. unfold take_z. destruct (k <? 0)%Z eqn:B; [apply Z.ltb_lt in B; lia|auto]. Qed.
Lemma all_males : forall h ids, Forall (fun i => l_male (at_ h i) = true) ids -> males h ids = ids /\ females h ids = [].
Proof. intros h ids H. induction H as [|i ids Hi H IH]; [auto|]. destruct IH as [I1 I2]. unfold males, females in *. cbn [filter]. rewrite Hi. cbn [negb]. rewrite I1, I2. auto. Qed.
Lemma all_females : forall h ids, Forall (fun i => l_male (at_ h i) = false) ids -> females h ids = ids /\ males h ids = [].
Proof. intros h ids H. induction H as [|i ids Hi H IH]; [auto|]. destruct IH as [I1 I2]. unfold males, females in *. cbn [filter]. rewrite Hi. cbn [negb]. rewrite I1, I2. auto. Qed.
Lemma males_male : forall h ids, Forall (fun i => l_male (at_ h i) = true) (males h ids).
Proof. intros h ids. apply Forall_forall. intros i H. apply filter_In in H. apply H. Qed.
Lemma females_female : forall h ids, Forall (fun i => l_male (at_ h i) = false) (females h ids).
Proof. intros h ids. apply Forall_forall. intros i H. apply filter_In in H. destruct H as [_ H]. apply negb_true_iff in H. exact H. Qed.
Lemma split_sexes : forall h ids, Permutation ids (females h ids ++ males h ids).
Proof.
  intros h. induction ids as [|i ids IH]; auto. unfold females, males in *. cbn [filter]. destruct (l_male (at_ h i)); cbn [negb app]; [apply Permutation_cons_app; auto|constructor; auto].
Qed.
Lemma Forall_perm : forall A (P : A -> Prop) a b, Permutation a b -> Forall P a -> Forall P b.
Proof. intros A P a b H1 H2. apply Forall_forall. intros x Q. apply (proj1 (Forall_forall _ _) H2). eapply Permutation_in; [apply Permutation_sym; eauto|auto]. Qed.
Lemma Forall_sub : forall A (P : A -> Prop) a b, Forall P a -> (forall x, In x b -> In x a) -> Forall P b.
Proof. intros A P a b H1 H2. apply Forall_forall. intros x Q. apply (proj1 (Forall_forall _ _) H1). auto. Qed.
Lemma expel1 : forall h ids r, counts h ids r -> (0 <= lr_em r <= lr_m r)%Z ->
  let sl := lo_expel h (r, ids) in
  counts h (fst sl) (row_m (- Z.of_nat (length (snd sl))) r) /\ Permutation ids (fst sl ++ snd sl) /\ Forall (fun i => l_male (at_ h i) = true) (snd sl) /\ Z.of_nat (length (snd sl)) = lr_em r.
Proof.
  intros h ids r (C1 & C2 & C3) He sl. unfold sl, lo_expel. cbn [fst snd]. clear sl. set (ms := sort_desc _ _). assert (Pm : Permutation (males h ids) ms) by apply sort_desc_perm. assert (Lm := Permutation_length Pm). clearbody ms.
  assert (Ms : Forall (fun i => l_male (at_ h i) = true) ms) by (eapply Forall_perm; [exact Pm|apply males_male]).
  rewrite from_skip by lia. rewrite take_first by lia. set (e := Z.to_nat (lr_em r)).
  assert (Ee : Z.of_nat e = lr_em r) by (unfold e; lia). assert (Le : e <= length ms) by (unfold e; lia). clearbody e.
  assert (Lf : length (firstn e ms) = e) by (rewrite firstn_length; lia).
  assert (Mk : Forall (fun i => l_male (at_ h i) = true) (skipn e ms)) by (eapply Forall_sub; [exact Ms|intros x; apply skipn_in]).
  assert (Mf : Forall (fun i => l_male (at_ h i) = true) (firstn e ms)) by (eapply Forall_sub; [exact Ms|intros x; apply firstn_in]).
  split; [|split; [|split; [exact Mf|lia]]].
  - destruct (all_males _ _ Mk) as [K1 K2]. destruct (all_females _ _ (females_female h ids)) as [K3 K4]. unfold counts. rewrite females_app, males_app, K1, K2, K3, K4, app_nil_r, !app_length, skipn_length, Lf. cbn [app length row_m lr_n lr_f lr_m].
    assert (X := sexes h ids). lia.
  - eapply Permutation_trans; [apply (split_sexes h)|]. rewrite <- app_assoc. apply Permutation_app_head. eapply Permutation_trans; [exact Pm|]. eapply Permutation_trans; [|apply Permutation_app_comm]. rewrite firstn_skipn. auto.
Qed.
Lemma expel_all : forall h ps rs, Forall2 (counts h) ps rs -> Forall (fun r => 0 <= lr_em r <= lr_m r)%Z rs ->
  let sp := map (lo_expel h) (combine rs ps) in
  length (map snd sp) = length rs /\ Forall2 (counts h) (map fst sp) (map2 (fun r xs => row_m (- Z.of_nat (length xs)) r) rs (map snd sp)) /\
  Permutation (concat ps) (concat (map fst sp) ++ concat (map snd sp)) /\
  (forall k i, In i (nth k (map fst sp) []) \/ In i (nth k (map snd sp) []) -> In i (nth k ps [])) /\
  Forall (fun i => l_male (at_ h i) = true) (concat (map snd sp)) /\ Forall2 (fun r lv => Z.of_nat (length lv) = lr_em r) rs (map snd sp).
Proof.
  intros h ps rs H. induction H as [|ids r ps rs H1 H2 IH]; intros He; cbn [combine map concat map2 length].
  - repeat split; auto. intros [|k] i [Q|Q]; destruct Q.
  - inversion He as [|? ? E1 E2]; subst. destruct (IH E2) as (I1 & I2 & I3 & I4 & I5 & I6). destruct (expel1 h ids r H1 E1) as (G1 & G2 & G3 & G4). set (sl := lo_expel h (r, ids)) in *. clearbody sl.
    split; [rewrite I1; auto|]. split; [constructor; auto|]. split; [|split; [|split; [apply Forall_app; auto|constructor; auto]]].
    + rewrite G2, I3. rewrite <- !app_assoc. apply Permutation_app_head. rewrite !app_assoc. apply Permutation_app_tail. apply Permutation_app_comm.
    + intros [|k] i Q; cbn [nth] in *; [|apply I4; auto]. apply (Permutation_in i (Permutation_sym G2)). apply in_or_app. auto.
Qed.
Lemma w_scan : forall h moved f n pos (Q : unit -> elog -> Prop) l, (0 <= pos)%Z -> (pos + Z.of_nat n <= Z.of_nat (length moved))%Z -> Q tt l -> wp K (lo_scan h moved f pos n) Q l.
Proof.
  intros h moved f. induction n as [|n IH]; intros pos Q l H1 H2 HQ; cbn [lo_scan]; [apply w_done; auto|]. apply wp_bind. unfold py_ix. cbv zeta.
  destruct (pos <? 0)%Z eqn:B; [apply Z.ltb_lt in B; lia|]. assert (X : ((0 <=? pos) && (pos <? Z.of_nat (length moved)))%Z = true) by (apply andb_true_iff; split; [apply Z.leb_le|apply Z.ltb_lt]; lia).
  rewrite X. apply w_done. destruct (l_male _ && _); [apply w_done; auto|apply IH; auto; lia].
Qed.
Lemma w_attack : forall h rows moved i (Q : unit -> elog -> Prop) l (ids : list (list nat)), Forall2 (fun xs r => lr_n r = Z.of_nat (length xs)) ids (pride_rows rows) -> length (concat ids) <= length moved -> Q tt l -> wp K (lo_attack F h rows moved i) Q l.
Proof.
  intros h rows moved i Q l ids H L HQ. unfold lo_attack. apply wp_bind. apply w_random_vec. intros ms _. apply wp_bind.
  assert (X : forall (ids : list (list nat)) rs, Forall2 (fun xs r => lr_n r = Z.of_nat (length xs)) ids rs -> forall ms ix (Q' : Z -> elog -> Prop), (0 <= ix)%Z -> (ix + Z.of_nat (length (concat ids)) <= Z.of_nat (length moved))%Z -> (forall ix', Q' ix' l) ->
    wp K (foldM (fun index (rm : lrow * num) => let size := lr_n (fst rm) in let* _ := if fltb (snd rm) (flit F 1 2) then lo_scan h moved (l_cf (at_ h i)) index (Z.to_nat size) else Done tt in Done (index + size)%Z) (combine rs ms) ix) Q' l).
  { clear ids H L ms. induction 1 as [|xs r ids rs H1 H2 IH]; intros ms ix Q' G1 G2 G3; [cbn; apply w_done; auto|]. destruct ms as [|m ms]; [cbn; apply w_done; auto|]. cbn [combine foldM concat] in *. rewrite app_length in G2. cbn [fst snd]. apply wp_bind. cbv zeta. apply wp_bind.
    destruct (fltb _ _); [apply w_scan; [auto|lia|]|apply w_done]; apply w_done; apply IH; auto; lia. }
  apply (X ids); auto; lia.
Qed.
Definition total (zs : list Z) : Z := fold_right Z.add 0%Z zs.
Lemma w_defense : forall h pop ps nom rs rn (Q : list lion * list nat * list lrow -> elog -> Prop) l, Lay h pop ps nom rs rn -> nom <> [] -> Forall (fun r => 0 <= lr_em r <= lr_m r)%Z rs ->
  (forall h' pop' ps' nom' rs', let sp := map (lo_expel h) (combine rs ps) in
     h' = tagall (-1) (concat (map snd sp)) h -> ps' = map fst sp -> nom' = nom ++ concat (map snd sp) -> rs' = map (fun r => row_m (- lr_em r) r) rs ->
     Lay h' pop' ps' nom' rs' (row_m (total (map lr_em rs)) rn) -> Q (h', pop', rs' ++ [row_m (total (map lr_em rs)) rn]) l) ->
  wp K (lo_defense F (rs ++ [rn]) pop h) Q l.
Proof.
  intros h pop ps nom rs rn Q l HL Hn He HQ. unfold lo_defense. rewrite (lay_prides _ _ _ _ _ _ HL), (lay_nomads _ _ _ _ _ _ HL Hn). unfold pride_rows. rewrite removelast_last. assert (Ii := lay_ids_ps _ _ _ _ _ _ HL).
  destruct HL as [L1 L2 L3 L4 L5 L6 L7]. destruct (expel_all h ps rs L4 He) as (I1 & I2 & I3 & I4 & I5 & I6). set (sp := map (lo_expel h) (combine rs ps)) in *. subst pop. apply nd_app in L2. destruct L2 as (N1 & N2 & N3).
  assert (Nc : NoDup (concat (map fst sp) ++ concat (map snd sp))) by (eapply Permutation_NoDup; eauto). apply nd_app in Nc. destruct Nc as (M1 & M2 & M3).
  assert (J1 : Ids h (concat ps)) by (apply Forall_app in L3; apply L3). assert (J2 : Ids h nom) by (apply Forall_app in L3; apply L3).
  assert (J3 : Ids h (concat (map fst sp))) by (eapply Ids_sub; [exact J1|]; intros i Q1; apply (Permutation_in i (Permutation_sym I3)); apply in_or_app; auto).
  assert (J4 : Ids h (concat (map snd sp))) by (eapply Ids_sub; [exact J1|]; intros i Q1; apply (Permutation_in i (Permutation_sym I3)); apply in_or_app; auto).
  assert (Es : map2 (fun r xs => row_m (- Z.of_nat (length xs)) r) rs (map snd sp) = map (fun r => row_m (- lr_em r) r) rs) by (clear - I6; induction I6; cbn; [auto|f_equal; [rewrite H; auto|auto]]).
  assert (Et : Z.of_nat (length (concat (map snd sp))) = total (map lr_em rs)) by (clear - I6; induction I6; cbn [map concat total fold_right length]; [auto|rewrite app_length, Nat2Z.inj_add, H; unfold total in IHI6; rewrite IHI6; auto]).
  rewrite Es in I2. set (h' := tagall (-1) (concat (map snd sp)) h).
  assert (Lh : length h' = length h) by apply tagall_len.
  assert (Gi : forall i, In i (concat (map snd sp)) -> at_ h' i = set_pride (at_ h i) (-1)) by (intros i; apply tagall_at; auto).
  assert (Go : forall i, ~ In i (concat (map snd sp)) -> at_ h' i = at_ h i) by (intros i; apply tagall_at; auto).
  assert (Gm : forall i, l_male (at_ h' i) = l_male (at_ h i)) by (intros i; destruct (in_dec Nat.eq_dec i (concat (map snd sp))) as [D|D]; [rewrite Gi by auto; reflexivity|rewrite Go by auto; reflexivity]).
  assert (Lay' : Lay h' (concat (map fst sp) ++ nom ++ concat (map snd sp)) (map fst sp) (nom ++ concat (map snd sp)) (map (fun r => row_m (- lr_em r) r) rs) (row_m (total (map lr_em rs)) rn)).
  { constructor.
    - reflexivity.
    - apply nd_app. split; auto. split.
      + apply nd_app. split; auto. split; auto. intros i Q1 Q2. apply (N3 i); auto. apply (Permutation_in i (Permutation_sym I3)). apply in_or_app; auto.
      + intros i Q1 Q2. apply in_app_or in Q2. destruct Q2 as [Q2|Q2]; [|eauto]. apply (N3 i); auto. apply (Permutation_in i (Permutation_sym I3)). apply in_or_app; auto.
    - apply Ids_len with (h := h); [|lia]. apply Forall_app. split; auto. apply Forall_app. auto.
    - eapply F2_impl; [|exact I2]. intros a b. apply counts_same. intros; apply Gm.
    - destruct L5 as (K1 & K2 & K3). unfold counts. rewrite females_app, males_app, (males_same h h'), (females_same h h') by (intros; apply Gm). rewrite (males_same h h'), (females_same h h') by (intros; apply Gm). destruct (all_males _ _ I5) as [-> ->]. rewrite app_nil_r, !app_length, !Nat2Z.inj_add, Et, <- K1, <- K2, <- K3. auto.
    - intros k i Q1. rewrite Go; [apply L6; apply I4; auto|]. intros Q2. apply (M3 i); auto. eapply nth_In_concat; eauto.
    - intros i Q1. apply in_app_or in Q1. destruct Q1 as [Q1|Q1]; [|rewrite Gi by auto; reflexivity]. rewrite Go; auto. intros Q2. apply (N3 i); auto. apply (Permutation_in i (Permutation_sym I3)). apply in_or_app; auto. }
  apply wp_bind. apply (w_leaves (map snd sp) rs h [] rn); [exact I1|exact M2|exact J4|intros j i Q1; cbn; apply L6; apply I4; auto|].
  cbn [app]. rewrite Es, Et. fold h'. rewrite <- app_assoc. apply wp_bind. apply (w_mapM_rel _ _ _ (fun _ _ => True)).
  - intros i Q' _ HQ'. apply (w_attack _ _ _ _ _ _ (map fst sp)); auto; [|rewrite app_length; lia]. unfold pride_rows. rewrite removelast_last. eapply F2_impl; [|exact I2]. intros a b Q1. apply Q1.
  - intros ys _. apply w_done. apply HQ with (ps' := map fst sp) (nom' := nom ++ concat (map snd sp)); auto.
Qed.

(** migration *)
Lemma pick_split : forall A (xs : list A) bs, length bs = length xs -> Permutation xs (map fst (filter (fun q => negb (snd q)) (combine xs bs)) ++ map fst (filter snd (combine xs bs))).
Proof.
  induction xs as [|x xs IH]; intros [|b bs] L; try discriminate; [auto|]. cbn [combine filter snd]. injection L as L. destruct b; cbn [negb map fst app]; [apply Permutation_cons_app; auto|constructor; auto].
Qed.
Lemma pick_count : forall A (xs : list A) bs, length bs = length xs -> length (map fst (filter snd (combine xs bs))) = length (filter (fun b => b) bs).
Proof. induction xs as [|x xs IH]; intros [|b bs] L; try discriminate; [auto|]. injection L as L. cbn [combine filter snd]. destruct b; cbn [map length]; auto. Qed.
Lemma count_perm : forall (a b : list bool), Permutation a b -> length (filter (fun b => b) a) = length (filter (fun b => b) b).
Proof. induction 1; cbn [filter]; auto; repeat match goal with |- context [if ?b then _ else _] => destruct b end; cbn [length]; congruence. Qed.
Lemma count_reps : forall a b, length (filter (fun b => b) (repeat true a ++ repeat false b)) = a.
Proof.
  intros a b. rewrite filter_app, app_length. assert (X : filter (fun b => b) (repeat false b) = []) by (induction b; cbn; auto). rewrite X. cbn [length]. rewrite Nat.add_0_r. induction a; cbn; auto.
Qed.
Definition emig (h : list lion) (r : lrow) (pride : list nat) (k : Z) (sl : list nat * list nat) : Prop :=
  exists st, fst sl = males h pride ++ st /\ Permutation (females h pride) (st ++ snd sl) /\ Z.of_nat (length (snd sl)) = Z.min (lr_ef r + k) (lr_f r).
Definition imm_of (t k : Z) : Prop := py_round (fmul F (fz F t) (lo_imm p)) = Ret k.
Lemma w_emigrate : forall h r pride (Q : list nat * list nat -> elog -> Prop) l, counts h pride r -> (0 <= lr_ef r)%Z -> (exists k, imm_of (lr_f r - lr_ef r) k /\ (0 <= k)%Z) ->
  (forall sl k, imm_of (lr_f r - lr_ef r) k -> (0 <= k)%Z -> emig h r pride k sl -> Q sl l) -> wp K (lo_emigrate F p h (r, pride)) Q l.
Proof.
  intros h r pride Q l (C1 & C2 & C3) He (k & Hk & K0) HQ. unfold lo_emigrate. apply wp_bind. apply w_lift_x; [intros e Ee; unfold imm_of in Hk; rewrite Hk in Ee; discriminate|]. intros k' Ek. unfold imm_of in Hk. rewrite Hk in Ek. injection Ek as <-.
  apply wp_bind. unfold lo_mask. destruct (lr_f r <? 0)%Z eqn:B; [apply Z.ltb_lt in B; lia|]. set (ones := length _).
  assert (Eo : Z.of_nat ones = Z.min (lr_ef r + k) (lr_f r)) by (unfold ones; rewrite take_first by lia; rewrite firstn_length, repeat_length; lia). clearbody ones.
  apply w_shuffled. intros mask Pm. assert (Lm : length mask = length (females h pride)) by (apply Permutation_length in Pm; rewrite <- Pm, app_length, !repeat_length; lia).
  assert (Cm : length (filter (fun b => b) mask) = ones) by (rewrite <- (count_perm _ _ Pm); apply count_reps).
  apply wp_bind. apply (w_mapM_rel _ _ _ (fun j b => nth j mask false = b)).
  - intros j Q' Hj HQ'. apply in_seq in Hj. apply w_nthP; [lia|]. intros a Ea. apply HQ'. apply nth_error_nth; auto.
  - intros ms Hm. assert (E : ms = mask). { rewrite <- (map_nth_seq _ mask false). rewrite Lm. clear - Hm. induction Hm; cbn; [auto|]. f_equal; auto. }
    subst ms. apply w_done. apply (HQ _ k); auto. eexists. cbn [fst snd]. split; [reflexivity|]. split; [apply pick_split; auto|]. rewrite pick_count by auto. lia.
Qed.
Definition copies (h : list lion) (k : Z) (ids : list nat) : list lion := map (fun i => set_pride (at_ h i) k) ids.
Lemma copies_len : forall h k ids, length (copies h k ids) = length ids.
Proof. intros. apply map_length. Qed.
Lemma copies_app : forall h k a b, copies h k (a ++ b) = copies h k a ++ copies h k b.
Proof. intros. apply map_app. Qed.
Lemma copies_h : forall h g k ids, Ids h ids -> copies (h ++ g) k ids = copies h k ids.
Proof. intros h g k ids H. apply map_ext_in. intros i Hi. rewrite at_app1; auto. exact (Ids_in _ _ _ H Hi). Qed.
Lemma seq_next : forall n (a b : nat), seq n (a + b) = seq n a ++ seq (n + a) b.
Proof. intros. apply seq_app. Qed.
Lemma w_emigrants1 : forall xs h pre r post rn moved (Q : list lion * list lrow * list nat -> elog -> Prop) l, Ids h xs -> (forall i, In i xs -> l_pride (at_ h i) = Z.of_nat (length pre)) ->
  Q (h ++ copies h (-1) xs, pre ++ row_f (- Z.of_nat (length xs)) r :: post ++ [row_f (Z.of_nat (length xs)) rn], moved ++ seq (length h) (length xs)) l ->
  wp K (foldM lo_emigrant xs (h, pre ++ r :: post ++ [rn], moved)) Q l.
Proof.
  induction xs as [|i xs IH]; intros h pre r post rn moved Q l Hi Ht HQ; cbn [foldM].
  - apply w_done. cbn [length copies map seq] in HQ. rewrite !app_nil_r in HQ. change (- Z.of_nat 0)%Z with 0%Z in HQ. change (Z.of_nat 0) with 0%Z in HQ. rewrite !row_f_0 in HQ. exact HQ.
  - inversion Hi as [|? ? I1 I2]; subst. apply wp_bind. unfold lo_emigrant at 1. apply wp_bind. apply w_at_row; [apply Ht; left; auto|]. apply wp_bind.
    replace (pre ++ row_f (-1) r :: post ++ [rn]) with ((pre ++ row_f (-1) r :: post) ++ [rn]) by (rewrite <- app_assoc; reflexivity). apply w_at_last. apply w_done. rewrite <- app_assoc. cbn [app]. apply IH.
    + eapply Ids_len; [exact I2|rewrite app_length; lia].
    + intros j Hj. rewrite at_app1 by exact (Ids_in _ _ _ I2 Hj). apply Ht. right; auto.
    + rewrite !row_f_add, copies_h by auto. rewrite <- !app_assoc. rewrite app_length. cbn [app length copies map seq] in *. rewrite Nat2Z.inj_succ in HQ. replace (-1 + - Z.of_nat (length xs))%Z with (- Z.succ (Z.of_nat (length xs)))%Z by lia. replace (1 + Z.of_nat (length xs))%Z with (Z.succ (Z.of_nat (length xs))) by lia.
      replace (length h + 1) with (S (length h)) by lia. exact HQ.
Qed.
Lemma w_emigrants : forall lvs rs h pre rn moved (Q : list lion * list lrow * list nat -> elog -> Prop) l, length lvs = length rs -> Ids h (concat lvs) ->
  (forall j i, In i (nth j lvs []) -> l_pride (at_ h i) = Z.of_nat (length pre + j)) ->
  Q (h ++ copies h (-1) (concat lvs), pre ++ map2 (fun r xs => row_f (- Z.of_nat (length xs)) r) rs lvs ++ [row_f (Z.of_nat (length (concat lvs))) rn], moved ++ seq (length h) (length (concat lvs))) l ->
  wp K (foldM lo_emigrant (concat lvs) (h, pre ++ rs ++ [rn], moved)) Q l.
Proof.
  induction lvs as [|xs lvs IH]; intros [|r rs] h pre rn moved Q l L Hi Ht HQ; try discriminate.
  - cbn [concat foldM map2 length copies map seq] in *. apply w_done. change (Z.of_nat 0) with 0%Z in HQ. rewrite row_f_0, !app_nil_r in HQ. exact HQ.
  - cbn [concat map2 length] in *. assert (I1 : Ids h xs) by (apply Forall_app in Hi; apply Hi). assert (I2 : Ids h (concat lvs)) by (apply Forall_app in Hi; apply Hi).
    apply w_foldM_app. cbn [app]. apply w_emigrants1; auto; [intros i Q1; rewrite (Ht 0 i Q1), Nat.add_0_r; auto|]. replace (pre ++ row_f (- Z.of_nat (length xs)) r :: rs ++ [row_f (Z.of_nat (length xs)) rn])
      with ((pre ++ [row_f (- Z.of_nat (length xs)) r]) ++ rs ++ [row_f (Z.of_nat (length xs)) rn]) by (rewrite <- app_assoc; reflexivity).
    apply IH.
    + lia.
    + eapply Ids_len; [exact I2|rewrite app_length; lia].
    + intros j i Q1. rewrite at_app1 by exact (Ids_in _ _ _ I2 (nth_In_concat _ _ _ _ Q1)). rewrite (Ht (S j) i Q1), app_length. cbn [length]. f_equal. lia.
    + rewrite copies_h by auto. rewrite copies_app, app_length, seq_next in HQ. rewrite row_f_add, <- !app_assoc. rewrite (app_length h), copies_len. cbn [app]. rewrite Nat2Z.inj_add in HQ. exact HQ.
Qed.
(** the copies join their prides *)
Fixpoint joins (base : nat) (stays mvs : list (list nat)) : list (list nat) :=
  match stays, mvs with
  | st :: stays', mv :: mvs' => (st ++ seq base (length mv)) :: joins (base + length mv) stays' mvs'
  | _, _ => []
  end.
Fixpoint migrants (h : list lion) (k : nat) (mvs : list (list nat)) : list lion :=
  match mvs with
  | [] => []
  | mv :: mvs' => copies h (Z.of_nat k) mv ++ migrants h (S k) mvs'
  end.
Lemma migrants_h : forall h g mvs k, Ids h (concat mvs) -> migrants (h ++ g) k mvs = migrants h k mvs.
Proof. intros h g. induction mvs as [|mv mvs IH]; intros k H; cbn [migrants concat] in *; auto. apply Forall_app in H. rewrite IH by apply H. rewrite copies_h by apply H. reflexivity. Qed.
Lemma migrants_len : forall h mvs k, length (migrants h k mvs) = length (concat mvs).
Proof. intros h. induction mvs as [|mv mvs IH]; intros k; cbn [migrants concat]; auto. unfold copies. rewrite !app_length, map_length, IH. auto. Qed.
Lemma joins_perm : forall stays mvs base, length stays = length mvs -> Permutation (concat (joins base stays mvs)) (concat stays ++ seq base (length (concat mvs))).
Proof.
  induction stays as [|st stays IH]; intros [|mv mvs] base L; try discriminate; [auto|]. injection L as L. cbn [joins concat]. rewrite IH by auto. rewrite app_length, seq_next, <- !app_assoc. apply Permutation_app_head.
  rewrite !app_assoc. apply Permutation_app_tail. apply Permutation_app_comm.
Qed.
Lemma joins_at : forall h stays mvs g k j i, length stays = length mvs -> In i (nth j (joins (length g) stays mvs) []) ->
  In i (nth j stays []) \/ (length g <= i /\ l_pride (at_ (g ++ migrants h k mvs) i) = Z.of_nat (k + j) /\ exists m, In m (concat mvs) /\ at_ (g ++ migrants h k mvs) i = set_pride (at_ h m) (Z.of_nat (k + j))).
Proof.
  intros h. induction stays as [|st stays IH]; intros [|mv mvs] g k j i L H; try discriminate; [destruct j; destruct H|]. injection L as L. cbn [joins migrants concat] in *. destruct j as [|j]; cbn [nth] in *.
  - apply in_app_or in H. destruct H as [H|H]; [auto|]. right. apply in_seq in H. split; [lia|]. rewrite Nat.add_0_r.
    assert (X : exists m, In m mv /\ at_ (g ++ copies h (Z.of_nat k) mv ++ migrants h (S k) mvs) i = set_pride (at_ h m) (Z.of_nat k)).
    { exists (nth (i - length g) mv 0). split; [apply nth_In; lia|]. unfold at_. rewrite app_nth2 by lia. rewrite app_nth1 by (unfold copies; rewrite map_length; lia).
      rewrite (nth_indep _ lion0 (set_pride (at_ h 0) (Z.of_nat k))) by (unfold copies; rewrite map_length; lia). unfold copies. rewrite (map_nth (fun i => set_pride (at_ h i) (Z.of_nat k))). reflexivity. }
    destruct X as (m & X1 & X2). rewrite X2. split; [reflexivity|]. exists m. split; [apply in_or_app; auto|auto].
  - replace (length g + length mv) with (length (g ++ copies h (Z.of_nat k) mv)) in H by (unfold copies; rewrite app_length, map_length; auto). destruct (IH mvs (g ++ copies h (Z.of_nat k) mv) (S k) j i L H) as [H1|(H1 & H2 & m & H3 & H4)]; [auto|right].
    rewrite <- app_assoc in H2, H4. replace (k + S j) with (S k + j) by lia. split; [rewrite app_length in H1; lia|]. split; auto. exists m. split; [apply in_or_app; auto|auto].
Qed.
Lemma w_immigrants1 : forall xs h pre r post rn final (Q : list lion * list lrow * list nat -> elog -> Prop) l, Ids h xs -> (forall i, In i xs -> l_pride (at_ h i) = (-1)%Z) ->
  Q (h ++ copies h (Z.of_nat (length pre)) xs, pre ++ row_f (Z.of_nat (length xs)) r :: post ++ [row_f (- Z.of_nat (length xs)) rn], final ++ seq (length h) (length xs)) l ->
  wp K (foldM (lo_immigrant (length pre)) xs (h, pre ++ r :: post ++ [rn], final)) Q l.
Proof.
  induction xs as [|i xs IH]; intros h pre r post rn final Q l Hi Ht HQ; cbn [foldM].
  - apply w_done. cbn [length copies map seq] in HQ. rewrite !app_nil_r in HQ. change (- Z.of_nat 0)%Z with 0%Z in HQ. change (Z.of_nat 0) with 0%Z in HQ. rewrite !row_f_0 in HQ. exact HQ.
  - inversion Hi as [|? ? I1 I2]; subst. apply wp_bind. unfold lo_immigrant at 1. apply wp_bind. rewrite (Ht i (or_introl eq_refl)).
    replace (pre ++ r :: post ++ [rn]) with ((pre ++ r :: post) ++ [rn]) by (rewrite <- app_assoc; reflexivity). apply w_at_last. apply wp_bind. rewrite <- app_assoc. cbn [app]. apply w_at_row; auto. apply w_done. apply IH.
    + eapply Ids_len; [exact I2|rewrite app_length; lia].
    + intros j Hj. rewrite at_app1 by exact (Ids_in _ _ _ I2 Hj). apply Ht. right; auto.
    + rewrite !row_f_add, copies_h by auto. rewrite <- !app_assoc. rewrite app_length. cbn [app length copies map seq] in *. rewrite Nat2Z.inj_succ in HQ. replace (-1 + - Z.of_nat (length xs))%Z with (- Z.succ (Z.of_nat (length xs)))%Z by lia. replace (1 + Z.of_nat (length xs))%Z with (Z.succ (Z.of_nat (length xs))) by lia.
      replace (length h + 1) with (S (length h)) by lia. exact HQ.
Qed.
Lemma w_assemble : forall stays mvs rs h pre rn final preS restS preM restM (Q : list lion * list lrow * list nat * Z * Z -> elog -> Prop) l moved movers ip jf,
  moved = preS ++ concat stays ++ restS -> movers = preM ++ concat mvs ++ restM -> ip = Z.of_nat (length preS) -> jf = Z.of_nat (length preM) ->
  Forall2 (fun ids r => lr_n r = Z.of_nat (length ids)) stays rs -> Forall2 (fun mv r => Z.of_nat (length mv) = Z.abs (lr_ef r)) mvs rs ->
  Ids h (concat mvs) -> (forall i, In i (concat mvs) -> l_pride (at_ h i) = (-1)%Z) ->
  (forall a b, Q (h ++ migrants h (length pre) mvs, pre ++ map2 (fun r mv => row_f (Z.of_nat (length mv)) r) rs mvs ++ [row_f (- Z.of_nat (length (concat mvs))) rn], final ++ concat (joins (length h) stays mvs), a, b) l) ->
  wp K (foldM (lo_assemble1 moved movers) (seq (length pre) (length rs)) (h, pre ++ rs ++ [rn], final, ip, jf)) Q l.
Proof.
  induction stays as [|st stays IH]; intros mvs rs h pre rn final preS restS preM restM Q l moved movers ip jf E1 E2 E3 E4 Hs Hm Hi Ht HQ; inversion Hs as [|? r ? rs1 S1 S2]; subst rs.
  - inversion Hm; subst mvs. cbn [length seq foldM migrants map2 concat joins] in *. apply w_done. specialize (HQ ip jf). change (- Z.of_nat 0)%Z with 0%Z in HQ. rewrite row_f_0, !app_nil_r in HQ. exact HQ.
  - inversion Hm as [|mv ? mvs1 ? M1 M2]; subst mvs. cbn [length seq foldM migrants map2 concat joins app] in *. apply Forall_app in Hi. destruct Hi as [I1 I2]. apply wp_bind. unfold lo_assemble1 at 1. rewrite nth_mid.
    assert (X1 : slice ip (ip + lr_n r) moved = st) by (rewrite E1, <- app_assoc; apply slice_mid; auto). assert (X2 : slice jf (jf + Z.abs (lr_ef r)) movers = mv) by (rewrite E2, <- app_assoc; apply slice_mid; auto).
    cbv zeta. apply wp_bind. rewrite X1, X2. apply w_immigrants1; auto; [intros i Q1; apply Ht; apply in_or_app; auto|]. apply w_done.
    replace (pre ++ row_f (Z.of_nat (length mv)) r :: rs1 ++ [row_f (- Z.of_nat (length mv)) rn]) with ((pre ++ [row_f (Z.of_nat (length mv)) r]) ++ rs1 ++ [row_f (- Z.of_nat (length mv)) rn]) by (rewrite <- app_assoc; reflexivity).
    replace (S (length pre)) with (length (pre ++ [row_f (Z.of_nat (length mv)) r])) by (rewrite app_length; cbn; lia).
    apply (IH mvs1 rs1 _ _ _ _ (preS ++ st) restS (preM ++ mv) restM); auto.
    + rewrite E1, <- !app_assoc. reflexivity.
    + rewrite E2, <- !app_assoc. reflexivity.
    + rewrite app_length, Nat2Z.inj_add. lia.
    + rewrite app_length, Nat2Z.inj_add. lia.
    + eapply Ids_len; [exact I2|rewrite app_length; lia].
    + intros i Q1. rewrite at_app1 by exact (Ids_in _ _ _ I2 Q1). apply Ht. apply in_or_app; auto.
    + intros a b. specialize (HQ a b). rewrite migrants_h by auto. rewrite row_f_add. rewrite (app_length pre), (app_length h), copies_len. cbn [length]. rewrite Nat.add_1_r, <- !app_assoc. cbn [app].
      rewrite (app_length mv) in HQ. replace (- Z.of_nat (length mv) + - Z.of_nat (length (concat mvs1)))%Z with (- Z.of_nat (length mv + length (concat mvs1)))%Z by lia. rewrite <- !app_assoc in HQ. exact HQ.
Qed.
Definition mig_ok (r : lrow) : Prop := (0 <= lr_ef r <= lr_f r)%Z /\ exists k, imm_of (lr_f r - lr_ef r) k /\ (0 <= k)%Z.
Definition emig_rel (h : list lion) (rp : lrow * list nat) (sl : list nat * list nat) : Prop :=
  exists k, imm_of (lr_f (fst rp) - lr_ef (fst rp)) k /\ (0 <= k)%Z /\ emig h (fst rp) (snd rp) k sl.
Lemma emig1 : forall h ids r sl, counts h ids r -> mig_ok r -> emig_rel h (r, ids) sl ->
  counts h (fst sl) (row_f (- Z.of_nat (length (snd sl))) r) /\ Permutation ids (fst sl ++ snd sl) /\ Forall (fun i => l_male (at_ h i) = false) (snd sl) /\ (lr_ef r <= Z.of_nat (length (snd sl)))%Z.
Proof.
  intros h ids r [st0 lv] (C1 & C2 & C3) ((E1 & E2) & _) (k & _ & K0 & st & -> & P & Ek). cbn [fst snd] in *. assert (Fa := Forall_perm _ _ _ _ P (females_female h ids)). apply Forall_app in Fa. destruct Fa as [F1 F2].
  assert (Lp := Permutation_length P). rewrite app_length in Lp. split; [|split; [|split; [auto|lia]]].
  - destruct (all_females _ _ F1) as [K1 K2]. destruct (all_males _ _ (males_male h ids)) as [K3 K4]. unfold counts. rewrite females_app, males_app, K1, K2, K3, K4, app_nil_r, !app_length. cbn [app length row_f lr_n lr_f lr_m]. assert (X := sexes h ids). lia.
  - eapply Permutation_trans; [apply (split_sexes h)|]. eapply Permutation_trans; [apply Permutation_app_comm|]. rewrite <- app_assoc. apply Permutation_app_head. exact P.
Qed.
Lemma emig_all : forall h ps rs, Forall2 (counts h) ps rs -> forall sl, Forall mig_ok rs -> Forall2 (emig_rel h) (combine rs ps) sl ->
  length (map snd sl) = length rs /\ Forall2 (counts h) (map fst sl) (map2 (fun r xs => row_f (- Z.of_nat (length xs)) r) rs (map snd sl)) /\
  Permutation (concat ps) (concat (map fst sl) ++ concat (map snd sl)) /\
  (forall k i, In i (nth k (map fst sl) []) \/ In i (nth k (map snd sl) []) -> In i (nth k ps [])) /\
  Forall (fun i => l_male (at_ h i) = false) (concat (map snd sl)) /\ Forall2 (fun r lv => (0 <= lr_ef r <= Z.of_nat (length lv))%Z) rs (map snd sl).
Proof.
  intros h ps rs H. induction H as [|ids r ps rs H1 H2 IH]; intros sl He Hr; cbn [combine] in Hr; inversion Hr as [|? sl1 ? sls R1 R2]; subst sl; cbn [map concat map2 length].
  - repeat split; auto. intros [|k] i [Q|Q]; destruct Q.
  - inversion He as [|? ? E1 E2]; subst. destruct (IH sls E2 R2) as (I1 & I2 & I3 & I4 & I5 & I6). destruct (emig1 h ids r _ H1 E1 R1) as (G1 & G2 & G3 & G4).
    split; [rewrite I1; auto|]. split; [constructor; auto|]. split; [|split; [|split; [apply Forall_app; auto|constructor; auto; destruct E1; lia]]].
    + rewrite G2, I3. rewrite <- !app_assoc. apply Permutation_app_head. rewrite !app_assoc. apply Permutation_app_tail. apply Permutation_app_comm.
    + intros [|k] i Q; cbn [nth] in *; [|apply I4; auto]. apply (Permutation_in i (Permutation_sym G2)). apply in_or_app. auto.
Qed.
Lemma split_by : forall (rs : list lrow) (xs : list nat), Z.of_nat (length xs) = total (map (fun r => Z.abs (lr_ef r)) rs) ->
  exists mvs, concat mvs = xs /\ Forall2 (fun mv r => Z.of_nat (length mv) = Z.abs (lr_ef r)) mvs rs.
Proof.
  induction rs as [|r rs IH]; intros xs H; cbn [map total fold_right] in H.
  - exists []. destruct xs; [split; auto|cbn in H; lia].
  - assert (X : (0 <= total (map (fun r => Z.abs (lr_ef r)) rs))%Z) by (clear; induction rs; cbn; [lia|unfold total in IHrs; lia]). unfold total in X.
    destruct (IH (skipn (Z.to_nat (Z.abs (lr_ef r))) xs)) as (mvs & G1 & G2); [rewrite skipn_length; unfold total; lia|].
    exists (firstn (Z.to_nat (Z.abs (lr_ef r))) xs :: mvs). cbn [concat]. rewrite G1, firstn_skipn. split; auto. constructor; auto. rewrite firstn_length. lia.
Qed.
Lemma joins_counts : forall h stays rs mvs g k, Forall2 (counts g) stays rs -> length stays = length mvs -> Ids g (concat stays) -> Forall (fun i => l_male (at_ h i) = false) (concat mvs) ->
  Forall2 (counts (g ++ migrants h k mvs)) (joins (length g) stays mvs) (map2 (fun r mv => row_f (Z.of_nat (length mv)) r) rs mvs).
Proof.
  intros h. induction stays as [|st stays IH]; intros rs mvs g k Hc L Hi Hf; inversion Hc as [|? r ? rs1 C1 C2]; subst rs; destruct mvs as [|mv mvs]; try discriminate; cbn [joins migrants map2]; [constructor|].
  cbn [concat] in Hi, Hf. apply Forall_app in Hi. destruct Hi as [I1 I2]. apply Forall_app in Hf. destruct Hf as [F1 F2]. injection L as L. constructor.
  - assert (Fs : Forall (fun i => l_male (at_ (g ++ copies h (Z.of_nat k) mv ++ migrants h (S k) mvs) i) = false) (seq (length g) (length mv))).
    { apply Forall_forall. intros i Q. apply in_seq in Q. unfold at_. rewrite app_nth2 by lia. rewrite app_nth1 by (rewrite copies_len; lia). assert (Y : In (nth (i - length g) (copies h (Z.of_nat k) mv) lion0) (copies h (Z.of_nat k) mv)) by (apply nth_In; rewrite copies_len; lia).
      apply in_map_iff in Y. destruct Y as (m' & <- & Y). cbn. apply (proj1 (Forall_forall _ _) F1 _ Y). }
    destruct (all_females _ _ Fs) as [K1 K2]. assert (Sm : forall i, In i st -> l_male (at_ (g ++ copies h (Z.of_nat k) mv ++ migrants h (S k) mvs) i) = l_male (at_ g i)) by (intros i Q; rewrite at_app1; auto; exact (Ids_in _ _ _ I1 Q)).
    destruct C1 as (D1 & D2 & D3). unfold counts. rewrite females_app, males_app, K1, K2, app_nil_r, (males_same g _ _ Sm), (females_same g _ _ Sm), !app_length, seq_length. cbn [row_f lr_n lr_f lr_m]. lia.
  - rewrite app_assoc. replace (length g + length mv) with (length (g ++ copies h (Z.of_nat k) mv)) by (rewrite app_length, copies_len; auto). apply IH; auto.
    + clear - C2 I2. revert I2. induction C2 as [|a b x y Q1 Q2 IH]; intros I2; constructor; cbn [concat] in I2; apply Forall_app in I2; [|apply IH; apply I2]. eapply counts_same; [|exact Q1]. intros i Q. rewrite at_app1; auto. exact (Ids_in _ _ _ (proj1 I2) Q).
    + eapply Ids_len; [exact I2|rewrite app_length; lia].
Qed.
Lemma moved_new : forall h new, Forall (fun a => exists j, j < length h /\ alike (at_ h j) a) new -> moved_on h (h ++ new).
Proof.
  intros h new H. split; [rewrite app_length; lia|]. split; [intros i Hi; rewrite at_app1 by auto; apply alike_refl|]. intros i Hi. rewrite app_length in Hi. unfold at_ at 2. rewrite app_nth2 by lia. apply (proj1 (Forall_forall _ _) H). apply nth_In. lia.
Qed.
Lemma copies_from : forall h k ids, Ids h ids -> Forall (fun a => exists j, j < length h /\ alike (at_ h j) a) (copies h k ids).
Proof. intros h k ids H. apply Forall_forall. intros a Q. apply in_map_iff in Q. destruct Q as (i & <- & Q). exists i. split; [exact (Ids_in _ _ _ H Q)|repeat split]. Qed.
Lemma migrants_from : forall h mvs k, Ids h (concat mvs) -> Forall (fun a => exists j, j < length h /\ alike (at_ h j) a) (migrants h k mvs).
Proof. intros h. induction mvs as [|mv mvs IH]; intros k H; cbn [migrants concat] in *; [constructor|]. apply Forall_app in H. apply Forall_app. split; [apply copies_from; apply H|apply IH; apply H]. Qed.
Lemma w_migration : forall h pop ps nom rs rn (Q : list lion * list nat * list lrow -> elog -> Prop) l, Lay h pop ps nom rs rn -> Forall mig_ok rs ->
  (forall h' pop' ps' nom' rs' rn', moved_on h h' -> rs' = map (fun r => row_f (- lr_ef r) r) rs -> rn' = row_f (total (map lr_ef rs)) rn ->
     Lay h' pop' ps' nom' rs' rn' -> Q (h', pop', rs' ++ [rn']) l) ->
  wp K (lo_migration F p (rs ++ [rn]) pop h) Q l.
Proof.
  intros h pop ps nom rs rn Q l HL Hg HQ. unfold lo_migration. rewrite (lay_prides _ _ _ _ _ _ HL). rewrite (lay_nomads2 _ _ _ _ _ _ HL). unfold pride_rows at 1. rewrite removelast_last. apply wp_bind.
  assert (L4 := la_ps _ _ _ _ _ _ HL). apply (w_mapM_rel _ _ _ (emig_rel h)).
  { intros [r ids] Q' Hin HQ'. assert (X : counts h ids r /\ mig_ok r) by (split; [|eapply Forall_forall; [exact Hg|eapply in_combine_l; eauto]]; clear - L4 Hin; induction L4; [destruct Hin|]; destruct Hin as [E|Hin]; [injection E as <- <-; auto|auto]).
    destruct X as [X1 X2]. apply w_emigrate; auto; [apply X2|apply X2|]. intros sl k H1 H2 H3. apply HQ'. exists k. auto. }
  intros sl Hsl. destruct (emig_all h ps rs L4 sl Hg Hsl) as (I1 & I2 & I3 & I4 & I5 & I6). set (stays := map fst sl) in *. set (lvs := map snd sl) in *. clearbody stays lvs. clear sl Hsl.
  set (rs1 := map2 (fun r xs => row_f (- Z.of_nat (length xs)) r) rs lvs) in *.
  destruct HL as [L1 L2 L3 _ L5 L6 L7]. subst pop. apply nd_app in L2. destruct L2 as (N1 & N2 & N3). apply Forall_app in L3. destruct L3 as [J1 J2].
  assert (Nc : NoDup (concat stays ++ concat lvs)) by (eapply Permutation_NoDup; eauto). apply nd_app in Nc. destruct Nc as (M1 & M2 & M3).
  assert (J3 : Ids h (concat stays)) by (eapply Ids_sub; [exact J1|]; intros i Q1; apply (Permutation_in i (Permutation_sym I3)); apply in_or_app; auto).
  assert (J4 : Ids h (concat lvs)) by (eapply Ids_sub; [exact J1|]; intros i Q1; apply (Permutation_in i (Permutation_sym I3)); apply in_or_app; auto).
  apply wp_bind. apply (w_emigrants lvs rs h [] rn); [exact I1|exact J4|intros j i Q1; cbn; apply L6; apply I4; auto|]. cbn [app]. fold rs1. set (h1 := h ++ copies h (-1) (concat lvs)). set (rn1 := row_f (Z.of_nat (length (concat lvs))) rn).
  set (nom1 := nom ++ seq (length h) (length (concat lvs))). rewrite <- app_assoc. fold nom1.
  assert (Lh1 : length h1 = length h + length (concat lvs)) by (unfold h1; rewrite app_length, copies_len; auto).
  assert (Old : forall i, i < length h -> at_ h1 i = at_ h i) by (intros; unfold h1; rewrite at_app1; auto).
  assert (New : forall i, In i (seq (length h) (length (concat lvs))) -> exists m, In m (concat lvs) /\ at_ h1 i = set_pride (at_ h m) (-1)).
  { intros i Q1. apply in_seq in Q1. assert (Y : In (nth (i - length h) (copies h (-1) (concat lvs)) lion0) (copies h (-1) (concat lvs))) by (apply nth_In; rewrite copies_len; lia). apply in_map_iff in Y. destruct Y as (m & Y1 & Y2). exists m. split; auto. unfold h1, at_ at 1. rewrite app_nth2 by lia. symmetry. exact Y1. }
  assert (Mo : moved_on h h1) by (apply moved_new; apply copies_from; auto).
  assert (Lay1 : Lay h1 (concat stays ++ nom1) stays nom1 rs1 rn1).
  { assert (Gs : forall i, In i (concat stays) -> In i (concat ps)) by (intros i Q1; apply (Permutation_in i (Permutation_sym I3)); apply in_or_app; auto). constructor.
    - reflexivity.
    - apply nd_app. split; auto. split.
      + unfold nom1. apply nd_app. split; auto. split; [apply seq_NoDup|]. intros i Q1 Q2. apply in_seq in Q2. apply (Ids_in _ _ _ J2) in Q1. lia.
      + intros i Q1 Q2. unfold nom1 in Q2. apply in_app_or in Q2. destruct Q2 as [Q2|Q2]; [apply (N3 i); auto|]. apply in_seq in Q2. apply (Ids_in _ _ _ J3) in Q1. lia.
    - apply Forall_app. split; [eapply Ids_len; [exact J3|lia]|]. unfold nom1. apply Forall_app. split; [eapply Ids_len; [exact J2|lia]|]. apply Forall_forall. intros i Q1. apply in_seq in Q1. lia.
    - clear - I2 J3 Old. revert J3. induction I2 as [|a b x y Q1 Q2 IH]; intros J3; constructor; cbn [concat] in J3; apply Forall_app in J3; [|apply IH; apply J3]. eapply counts_same; [|exact Q1]. intros i Q. rewrite Old; auto. exact (Ids_in _ _ _ (proj1 J3) Q).
    - destruct L5 as (K1 & K2 & K3). assert (Sm : forall i, In i nom -> l_male (at_ h1 i) = l_male (at_ h i)) by (intros i Q1; rewrite Old; auto; exact (Ids_in _ _ _ J2 Q1)).
      assert (Fs : Forall (fun i => l_male (at_ h1 i) = false) (seq (length h) (length (concat lvs)))) by (apply Forall_forall; intros i Q1; destruct (New i Q1) as (m & G1 & ->); cbn; apply (proj1 (Forall_forall _ _) I5 _ G1)).
      destruct (all_females _ _ Fs) as [F1 F2]. unfold counts, nom1. rewrite females_app, males_app, F1, F2, app_nil_r, (males_same h h1 _ Sm), (females_same h h1 _ Sm), !app_length, seq_length. unfold rn1. cbn [row_f lr_n lr_f lr_m]. lia.
    - intros k i Q1. rewrite Old by exact (Ids_in _ _ _ J3 (nth_In_concat _ _ _ _ Q1)). apply L6. apply I4. auto.
    - intros i Q1. unfold nom1 in Q1. apply in_app_or in Q1. destruct Q1 as [Q1|Q1]; [rewrite Old by exact (Ids_in _ _ _ J2 Q1); auto|]. destruct (New i Q1) as (m & _ & ->). reflexivity. }
  assert (Lm : length (concat ps ++ nom) = length (concat stays ++ nom1)) by (apply Permutation_length in I3; unfold nom1; rewrite !app_length, seq_length in *; lia).
  rewrite Lm, (lay_nomads2 _ _ _ _ _ _ Lay1). unfold pride_rows. rewrite !removelast_last. fold (total (map (fun r => Z.abs (lr_ef r)) rs1)).
  set (spots := total (map (fun r => Z.abs (lr_ef r)) rs1)). set (fs := sort_on _ _).
  assert (Es : spots = (Z.of_nat (length (concat lvs)) - total (map lr_ef rs))%Z /\ (0 <= spots)%Z /\ (0 <= total (map lr_ef rs))%Z).
  { unfold spots, rs1. clear - I6. induction I6 as [|r lv rs lvs H1 H2 IH]; cbn [map map2 concat total fold_right length]; [lia|]. rewrite app_length. unfold total in IH. cbn [row_f lr_ef]. lia. }
  destruct Es as (Es & S0 & T0). destruct Lay1 as [_ A2 A3 A4 A5 A6 A7]. apply nd_app in A2. destruct A2 as (B1 & B2 & B3). apply Forall_app in A3. destruct A3 as [B4 B5].
  assert (Pf : Permutation (females h1 nom1) fs) by (apply sort_on_perm). assert (Ff : Forall (fun i => l_male (at_ h1 i) = false) fs) by (eapply Forall_perm; [exact Pf|apply females_female]).
  assert (Lf : (spots <= Z.of_nat (length fs))%Z) by (rewrite <- (Permutation_length Pf); destruct A5 as (_ & D & _); rewrite <- D; unfold rn1; cbn [row_f lr_f]; destruct L5 as (_ & D2 & _); lia).
  clearbody fs. apply wp_bind. apply w_shuffled. rewrite take_first by auto. rewrite from_skip by lia. intros movers Pm. set (e := Z.to_nat spots) in *.
  assert (Le : Z.of_nat (length movers) = spots) by (apply Permutation_length in Pm; rewrite firstn_length in Pm; unfold e in Pm; lia).
  assert (Pn : Permutation nom1 (movers ++ skipn e fs ++ males h1 nom1)).
  { rewrite (split_sexes h1 nom1) at 1. rewrite Pf. rewrite <- (firstn_skipn e fs) at 1. rewrite Pm. rewrite <- app_assoc. auto. }
  destruct (split_by rs1 movers) as (mvs & Ec & Hv); [unfold spots in Le; exact Le|].
  assert (Mn : Forall (fun i => l_male (at_ h1 i) = false) (concat mvs)) by (rewrite Ec; eapply Forall_sub; [exact Ff|]; intros i Q1; apply (Permutation_in i (Permutation_sym Pm)) in Q1; apply firstn_in in Q1; auto).
  assert (Im : forall i, In i (concat mvs) -> In i nom1) by (rewrite Ec; intros i Q1; apply (Permutation_in i (Permutation_sym Pn)); apply in_or_app; auto).
  assert (Ib : forall i, In i (skipn e fs ++ males h1 nom1) -> In i nom1) by (intros i Q1; apply (Permutation_in i (Permutation_sym Pn)); apply in_or_app; auto).
  assert (Nm : NoDup (skipn e fs ++ males h1 nom1)) by (assert (X : NoDup (movers ++ skipn e fs ++ males h1 nom1)) by (eapply Permutation_NoDup; [exact Pn|auto]); apply nd_app in X; apply X).
  assert (Imh : Ids h1 (concat mvs)) by (eapply Ids_sub; [exact B5|auto]).
  assert (Ls : length stays = length mvs) by (apply Forall2_len in A4; apply Forall2_len in Hv; lia).
  assert (Lt : length (map2 (fun r mv => row_f (Z.of_nat (length mv)) r) rs1 mvs) = length rs1 /\ map2 (fun r mv => row_f (Z.of_nat (length mv)) r) rs1 mvs = map (fun r => row_f (- lr_ef r) r) rs).
  { unfold rs1 in *. clear - I6 Hv. revert mvs Hv. induction I6 as [|r lv rs lvs H1 H2 IH]; intros mvs Hv; cbn [map map2] in *; inversion Hv as [|mv ? mvs1 ? V1 V2]; subst; [auto|]. destruct (IH _ V2) as [G1 G2]. cbn [map2 length]. rewrite G1, G2. split; auto. f_equal. rewrite row_f_add. f_equal. cbn [row_f lr_ef] in V1. lia. }
  destruct Lt as [_ Et]. assert (En : row_f (- Z.of_nat (length (concat mvs))) rn1 = row_f (total (map lr_ef rs)) rn) by (unfold rn1; rewrite row_f_add, Ec, Le; f_equal; lia).
  apply wp_bind. apply (w_assemble stays mvs rs1 h1 [] rn1 [] [] nom1 [] []); auto.
  - cbn [app]. rewrite app_nil_r. auto.
  - eapply F2_impl; [|exact A4]. intros a b Q1. apply Q1.
  - intros a b. cbn [app length]. apply w_done. rewrite Et, En. assert (Mh : length (h1 ++ migrants h1 0 mvs) = length h1 + length (concat mvs)) by (rewrite app_length, migrants_len; auto).
    assert (Old2 : forall i, i < length h1 -> at_ (h1 ++ migrants h1 0 mvs) i = at_ h1 i) by (intros; rewrite at_app1; auto).
    assert (Pj := joins_perm stays mvs (length h1) Ls).
    apply HQ with (ps' := joins (length h1) stays mvs) (nom' := skipn e fs ++ males h1 nom1); auto.
    + eapply moved_trans; [exact Mo|]. apply moved_new. apply migrants_from. auto.
    + constructor.
      * reflexivity.
      * apply nd_app. split; [|split; auto].
        { eapply Permutation_NoDup; [apply Permutation_sym; exact Pj|]. apply nd_app. split; auto. split; [apply seq_NoDup|]. intros i Q1 Q2. apply in_seq in Q2. apply (Ids_in _ _ _ B4) in Q1. lia. }
        { intros i Q1 Q2. apply Ib in Q2. apply (Permutation_in i Pj) in Q1. apply in_app_or in Q1. destruct Q1 as [Q1|Q1]; [apply (B3 i); auto|]. apply in_seq in Q1. apply (Ids_in _ _ _ B5) in Q2. lia. }
      * apply Forall_app. split.
        { apply Forall_forall. intros i Q1. apply (Permutation_in i Pj) in Q1. rewrite Mh. apply in_app_or in Q1. destruct Q1 as [Q1|Q1]; [apply (Ids_in _ _ _ B4) in Q1; lia|apply in_seq in Q1; lia]. }
        { apply Ids_len with (h := h1); [eapply Ids_sub; [exact B5|auto]|lia]. }
      * rewrite <- Et. apply joins_counts; auto.
      * rewrite <- En. assert (Sm : forall i, In i (skipn e fs ++ males h1 nom1) -> l_male (at_ (h1 ++ migrants h1 0 mvs) i) = l_male (at_ h1 i)) by (intros i Q1; rewrite Old2; auto; exact (Ids_in _ _ _ B5 (Ib i Q1))).
        eapply counts_same; [exact Sm|]. destruct A5 as (D1 & D2 & D3). assert (Fk : Forall (fun i => l_male (at_ h1 i) = false) (skipn e fs)) by (eapply Forall_sub; [exact Ff|intros i; apply skipn_in]).
        destruct (all_females _ _ Fk) as [K1 K2]. destruct (all_males _ _ (males_male h1 nom1)) as [K3 K4]. unfold counts. rewrite females_app, males_app, K1, K2, K3, K4, app_nil_r. cbn [app]. rewrite app_length, Ec. assert (X := Permutation_length Pn). rewrite !app_length in X. assert (Y := sexes h1 nom1).
        assert (Lk : Z.of_nat (length (skipn e fs)) = (Z.of_nat (length fs) - spots)%Z) by (rewrite skipn_length; unfold e; lia). assert (Lz := Permutation_length Pf). cbn [row_f lr_n lr_f lr_m]. lia.
      * intros k i Q1. destruct (joins_at h1 stays mvs h1 0 k i Ls Q1) as [H1|(_ & H1 & _)]; [|exact H1]. rewrite Old2 by exact (Ids_in _ _ _ B4 (nth_In_concat _ _ _ _ H1)). auto.
      * intros i Q1. apply Ib in Q1. rewrite Old2 by exact (Ids_in _ _ _ B5 Q1). auto.
Qed.

(** equilibrium *)
Lemma lay_equilibrium : forall h pop ps nom rs rn, Lay h pop ps nom rs rn -> nom <> [] -> (0 <= lr_ef rn <= lr_f rn)%Z -> (0 <= lr_em rn <= lr_m rn)%Z ->
  let nom' := skipn (Z.to_nat (lr_em rn)) (sort_desc (fun i => l_cf (at_ h i)) (males h nom)) ++ skipn (Z.to_nat (lr_ef rn)) (sort_desc (fun i => l_cf (at_ h i)) (females h nom)) in
  let rn' := LRow (lr_n rn - (lr_ef rn + lr_em rn)) (lr_f rn - lr_ef rn) (lr_m rn - lr_em rn) (lr_ef rn) (lr_em rn) in
  lo_equilibrium (rs ++ [rn]) pop h = (concat ps ++ nom', rs ++ [rn']) /\ Lay h (concat ps ++ nom') ps nom' rs rn'.
Proof.
  intros h pop ps nom rs rn HL Hn He Hm nom' rn'. assert (E1 := lay_nomads _ _ _ _ _ _ HL Hn). assert (E2 := lay_len _ _ _ _ _ _ HL). unfold lo_equilibrium. rewrite E1, lr_app, E2. unfold pride_rows. rewrite rl_app.
  destruct HL as [L1 L2 L3 L4 (C1 & C2 & C3) L6 L7]. unfold nom' in *. clear nom'. set (ms := sort_desc _ (males h nom)). set (fs := sort_desc _ (females h nom)).
  assert (Pm : Permutation (males h nom) ms) by apply sort_desc_perm. assert (Pf : Permutation (females h nom) fs) by apply sort_desc_perm. clearbody ms fs. assert (Lm := Permutation_length Pm). assert (Lf := Permutation_length Pf).
  assert (Ms : Forall (fun i => l_male (at_ h i) = true) ms) by (eapply Forall_perm; [exact Pm|apply males_male]). assert (Fs : Forall (fun i => l_male (at_ h i) = false) fs) by (eapply Forall_perm; [exact Pf|apply females_female]).
  set (km := Z.to_nat (lr_em rn)). set (kf := Z.to_nat (lr_ef rn)). rewrite !from_skip by lia. rewrite take_first by lia. rewrite Nat2Z.id, L1, firstn_app, Nat.sub_diag, firstn_all. cbn [firstn]. rewrite app_nil_r. split; [reflexivity|].
  assert (In' : forall i, In i (skipn km ms ++ skipn kf fs) -> In i nom).
  { intros i Q. apply in_app_or in Q. destruct Q as [Q|Q]; apply skipn_in in Q; [apply (Permutation_in i (Permutation_sym Pm)) in Q; eapply males_in; eauto|apply (Permutation_in i (Permutation_sym Pf)) in Q; eapply females_in; eauto]. }
  subst pop. apply nd_app in L2. destruct L2 as (N1 & N2 & N3). apply Forall_app in L3. destruct L3 as [I1 I2].
  assert (Mk : Forall (fun i => l_male (at_ h i) = true) (skipn km ms)) by (eapply Forall_sub; [exact Ms|intros i; apply skipn_in]). assert (Fk : Forall (fun i => l_male (at_ h i) = false) (skipn kf fs)) by (eapply Forall_sub; [exact Fs|intros i; apply skipn_in]).
  constructor; auto.
  - apply nd_app. split; auto. split; [|intros i Q1 Q2; eauto]. apply nd_app. assert (X : forall a b : list nat, Permutation a b -> NoDup a -> forall k, NoDup (skipn k b)).
    { intros a b Pab Na k. assert (Nb : NoDup b) by (eapply Permutation_NoDup; eauto). rewrite <- (firstn_skipn k b) in Nb. apply nd_app in Nb. apply Nb. }
    split; [apply (X _ _ Pm); apply NoDup_filter; auto|]. split; [apply (X _ _ Pf); apply NoDup_filter; auto|]. intros i Q1 Q2. apply (proj1 (Forall_forall _ _) Mk) in Q1. apply (proj1 (Forall_forall _ _) Fk) in Q2. congruence.
  - apply Forall_app. split; auto. eapply Ids_sub; [exact I2|auto].
  - destruct (all_males _ _ Mk) as [K1 K2]. destruct (all_females _ _ Fk) as [K3 K4]. unfold counts, rn'. rewrite females_app, males_app, K1, K2, K3, K4, app_nil_r. cbn [app lr_n lr_f lr_m]. rewrite app_length, !skipn_length. assert (X := sexes h nom). unfold km, kf. lia.
Qed.

(** one iteration *)
Lemma moved_tag : forall k xs h, Ids h xs -> moved_on h (tagall k xs h).
Proof.
  intros k xs h H. split; [rewrite tagall_len; auto|]. split; [|intros i Hi; rewrite tagall_len in Hi; lia]. intros i Hi. destruct (tagall_at k xs h i H) as [G1 G2]. destruct (in_dec Nat.eq_dec i xs) as [D|D]; [rewrite G1 by auto; repeat split|rewrite G2 by auto; apply alike_refl].
Qed.
(** nobody gets worse *)
Definition kept (h h' : list lion) : Prop := length h <= length h' /\ forall i, i < length h -> l_x (at_ h' i) = l_x (at_ h i) /\ l_f (at_ h' i) = l_f (at_ h i) \/ fltb (l_f (at_ h' i)) (l_f (at_ h i)) = true.
Lemma kept_kin : forall h h', kin h h' -> kept h h'.
Proof. intros h h' [L H]. split; [lia|]. intros i _. apply H. Qed.
Lemma kept_grows : forall a b c, kept a b -> grows b c -> kept a c.
Proof. intros a b c [L H] (n & ->). split; [rewrite app_length; lia|]. intros i Hi. rewrite at_app1 by lia. auto. Qed.
Lemma kept_moved : forall a b c, kept a b -> moved_on b c -> kept a c.
Proof. intros a b c [L H] (L2 & G & _). split; [lia|]. intros i Hi. destruct (G i ltac:(lia)) as (E1 & E2 & _). rewrite E1, E2. auto. Qed.
Lemma kept_correct : forall a b pop, kept a b -> kept a (lo_correct pop b).
Proof. intros a b pop [L H]. split; [rewrite correct_len; auto|]. intros i Hi. destruct (correct_alike pop b i) as (E1 & E2 & _). rewrite E1, E2. auto. Qed.
(** the phases up to mating *)
Definition lived (rows : list lrow) (pop : list nat) (h : list lion) (l : elog) (h3 h4 : list lion) (pop4 : list nat) (rows4 : list lrow) (l' : elog) : Prop :=
  exists h1 l1 h2 l2 l3, folds hunted (prides rows pop) h l h1 l1 /\ all_safe rows pop h1 l1 h2 l2 /\ all_roam rows pop h2 l2 h3 l3 /\ all_mate rows pop h3 l3 (h4, pop4, rows4) l'.
Definition lo_tail (h : list lion) (pop : list nat) (rows : list lrow) (xb : vec) (fxb : num) : prog ((list lion * list nat) * list num * vec * num * list lrow) :=
  let fit' := map (fun i => l_f (at_ h i)) pop in
  let* (xb', fxb') := lift (get_best (map (fun i => l_x (at_ h i)) pop) fit' (Some xb) fxb) in
  Done ((h, pop), fit', xb', fxb', rows).
Lemma w_iter_x : forall h pop fit xb fxb rows (Q : (list lion * list nat) * list num * vec * num * list lrow -> elog -> Prop) l, K_exn K EIndex -> K_exn K EValue -> Store l h -> Ids h pop ->
  (forall h3 h4 pop4 rows4 h6 pop6 pop7 rows6 rows7 l', lived rows pop h l h3 h4 pop4 rows4 l' -> kin h h3 -> grows h3 h4 -> Ids h4 pop4 -> moved_on h4 h6 -> (pop7, rows7) = lo_equilibrium rows6 pop6 h6 ->
     let h7 := lo_correct pop7 h6 in Store l' h7 -> Ids h7 pop7 -> Ids h6 pop7 -> kept h h7 -> ext l l' -> wp K (lo_tail h7 pop7 rows7 xb fxb) Q l') ->
  wp K (lo_iter F C p pi (h, pop) fit xb fxb rows) Q l.
Proof.
  intros h pop fit xb fxb rows Q l Hx Hv Hs Hi HQ. unfold lo_iter. apply wp_bind. apply w_hunting; auto. intros h1 l1 R1 S1 K1 E1. assert (I1 : Ids h1 pop) by (eapply Ids_len; [exact Hi|rewrite (proj1 K1); auto]).
  apply wp_bind. apply w_safe; auto. intros h2 l2 R2 S2 K2 E2. assert (I2 : Ids h2 pop) by (eapply Ids_len; [exact I1|rewrite (proj1 K2); auto]).
  apply wp_bind. apply w_roaming; auto. intros h3 l3 R3 S3 K3 E3. assert (I3 : Ids h3 pop) by (eapply Ids_len; [exact I2|rewrite (proj1 K3); auto]).
  apply wp_bind. apply w_mating; auto. intros h4 pop4 rows4 l4 R4 S4 I4 G4 E4. apply wp_bind. apply w_defense_x; auto. intros h5 pop5 rows5 M5 I5. apply wp_bind. apply w_migration_x; auto. intros h6 pop6 rows6 M6 I6.
  assert (M46 : moved_on h4 h6) by (eapply moved_trans; eauto). assert (S6 := Store_moved _ _ _ S4 M46). assert (K03 : kin h h3) by (eapply kin_trans; [eapply kin_trans; [exact K1|exact K2]|exact K3]).
  destruct (lo_equilibrium rows6 pop6 h6) as [pop7 rows7] eqn:Eq. assert (I7 : Ids h6 pop7) by (eapply Ids_sub; [exact I6|]; intros i Hin; apply (equil_in rows6 pop6 h6); rewrite Eq; exact Hin).
  apply (HQ h3 h4 pop4 rows4 h6 pop6 pop7 rows6 rows7); auto.
  - exists h1, l1, h2, l2, l3. auto.
  - apply Store_correct. auto.
  - eapply Ids_len; [exact I7|rewrite correct_len; auto].
  - apply kept_correct. eapply kept_moved; [|exact M46]. eapply kept_grows; [|exact G4]. apply kept_kin. exact K03.
  - eapply ext_trans; [|exact E4]. eapply ext_trans; [|exact E3]. eapply ext_trans; eauto.
Qed.
(** the parameters suit the pride *)
Definition fit_row (r : lrow) : Prop :=
  (1 <= lr_f r)%Z /\ (0 <= lr_m r)%Z /\ roam_ok (lr_f r + lr_m r) (Z.to_nat (lr_f r + lr_m r)) /\ exists k, imm_of (lr_f r) k /\ (0 <= k)%Z.
Definition fm (r : lrow) : Z * Z := (lr_f r, lr_m r).
Lemma lay_correct : forall h pop ps nom rs rn, Lay h pop ps nom rs rn -> Lay (lo_correct pop h) pop ps nom rs rn.
Proof.
  intros h pop ps nom rs rn HL. apply (lay_same h); [rewrite correct_len; auto| |exact HL]. intros i Hin. destruct (correct_at pop h (la_nd _ _ _ _ _ _ HL) (la_ids _ _ _ _ _ _ HL) i) as [G _]. rewrite (G Hin). auto.
Qed.
(** e of the given lions leave, the ones with the worst current values *)
Definition worst_of (h : list lion) (xs : list nat) (e : Z) (out rest : list nat) : Prop :=
  Permutation xs (out ++ rest) /\ Z.of_nat (length out) = e /\ forall i j, In i out -> In j rest -> fltb (l_cf (at_ h i)) (l_cf (at_ h j)) = false.
Lemma worst_sorted : forall h xs e, (0 <= e <= Z.of_nat (length xs))%Z -> let ms := sort_desc (fun i => l_cf (at_ h i)) xs in worst_of h xs e (firstn (Z.to_nat e) ms) (skipn (Z.to_nat e) ms).
Proof.
  clear. intros h xs e He ms. assert (Pm : Permutation xs ms) by apply sort_desc_perm. assert (Lm := Permutation_length Pm). split; [rewrite firstn_skipn; exact Pm|]. split; [rewrite firstn_length; lia|].
  intros i j Hi Hj. unfold ms, sort_desc in Hi, Hj. rewrite firstn_rev in Hi. rewrite skipn_rev in Hj. apply in_rev in Hi, Hj. assert (Y := sort_on_split _ _ _ _ _ _ Hj Hi). cbv beta in Y.
  destruct (l_cf (at_ h i)), (l_cf (at_ h j)); cbn in *; auto; try discriminate. apply Z.leb_le in Y. apply Z.ltb_ge. auto.
Qed.
(** defense: the excess males of every pride become nomads *)
Definition defended (h : list lion) (rs : list lrow) (ps : list (list nat)) (nom : list nat) (h' : list lion) (ps' : list (list nat)) (nom' : list nat) : Prop :=
  exists outs rests, length outs = length ps /\ length rests = length ps /\ length ps' = length ps /\
    (forall k, k < length ps -> worst_of h (males h (nth k ps [])) (lr_em (nth k rs row0)) (nth k outs []) (nth k rests []) /\ nth k ps' [] = females h (nth k ps []) ++ nth k rests []) /\
    nom' = nom ++ concat outs /\ length h' = length h /\ forall i, at_ h' i = if in_dec Nat.eq_dec i (concat outs) then with_pride (-1) (at_ h i) else at_ h i.
(** population_equilibrium: the worst nomads leave the population *)
Definition culled (h : list lion) (rn : lrow) (nom nom' : list nat) : Prop :=
  exists outm restm outf restf, worst_of h (males h nom) (lr_em rn) outm restm /\ worst_of h (females h nom) (lr_ef rn) outf restf /\ nom' = restm ++ restf.
Definition settles_down (h4 : list lion) (pop4 : list nat) (rows4 : list lrow) (h6 : list lion) (pop7 : list nat) (rows7 : list lrow) : Prop :=
  exists ps4 nom4 rs4 rn4 h5 ps5 nom5 ps6 nom6 rn6 nom7, rows4 = rs4 ++ [rn4] /\ Lay h4 pop4 ps4 nom4 rs4 rn4 /\ defended h4 rs4 ps4 nom4 h5 ps5 nom5 /\
    moved_on h5 h6 /\ length ps6 = length ps5 /\
    (forall k, k < length ps5 -> Z.of_nat (length (females h6 (nth k ps6 []))) = (Z.of_nat (length (females h5 (nth k ps5 []))) - lr_ef (nth k rs4 row0))%Z /\ length (males h6 (nth k ps6 [])) = length (males h5 (nth k ps5 []))) /\
    lr_ef rn6 = (lr_ef rn4 + total (map lr_ef rs4))%Z /\ lr_em rn6 = (lr_em rn4 + total (map lr_em rs4))%Z /\ length (females h6 nom6) + length (males h6 nom6) = length nom6 /\
    (forall k i, In i (nth k ps6 []) -> l_pride (at_ h6 i) = Z.of_nat k) /\ (forall i, In i nom6 -> l_pride (at_ h6 i) = (-1)%Z) /\
    culled h6 rn6 nom6 nom7 /\ pop7 = concat ps6 ++ nom7.
Lemma defended_is : forall h rs ps nom, Forall2 (counts h) ps rs -> Forall (fun r => 0 <= lr_em r <= lr_m r)%Z rs -> let sp := map (lo_expel h) (combine rs ps) in Ids h (concat (map snd sp)) ->
  defended h rs ps nom (tagall (-1) (concat (map snd sp)) h) (map fst sp) (nom ++ concat (map snd sp)).
Proof.
  clear. intros h rs ps nom H He sp Hi. assert (Ll := Forall2_len _ _ _ _ _ H).
  exists (map snd sp), (map (fun rp : lrow * list nat => from_z (lr_em (fst rp)) (sort_desc (fun i => l_cf (at_ h i)) (males h (snd rp)))) (combine rs ps)).
  assert (Lc : length (combine rs ps) = length ps) by (rewrite combine_length; lia). unfold sp. rewrite !map_length, Lc. do 3 (split; [reflexivity|]). split; [|split; [reflexivity|split; [apply tagall_len|]]].
  - intros k Lk. assert (E0 : nth k (combine rs ps) (row0, []) = (nth k rs row0, nth k ps [])) by (apply combine_nth; lia).
    assert (Hk : counts h (nth k ps []) (nth k rs row0)) by (clear - H Lk; revert k Lk; induction H; intros [|k] Lk; cbn in *; try lia; auto; apply IHForall2; lia).
    assert (Hm : (0 <= lr_em (nth k rs row0) <= lr_m (nth k rs row0))%Z) by (apply (proj1 (Forall_forall _ _) He); apply nth_In; lia). destruct Hk as (_ & _ & Hk).
    assert (Nx : forall B (f : lrow * list nat -> B) dB, nth k (map f (combine rs ps)) dB = f (nth k rs row0, nth k ps [])) by (intros B f dB; rewrite (nth_indep _ dB (f (row0, []))) by (rewrite map_length; lia); rewrite map_nth, E0; reflexivity).
    rewrite !map_map, !Nx. cbn [lo_expel fst snd]. split; [|reflexivity]. set (ms := sort_desc _ _). assert (Lm : length ms = length (males h (nth k ps []))) by (symmetry; apply Permutation_length, sort_desc_perm).
    rewrite from_skip by lia. rewrite take_first by lia. apply worst_sorted. lia.
  - intros i. destruct (tagall_at (-1) _ h i Hi) as [A1 A2]. destruct (in_dec Nat.eq_dec i _) as [Q|Q]; auto.
Qed.
Lemma w_iter_good : forall h pop fit xb fxb ps nom rs rn (Q : (list lion * list nat) * list num * vec * num * list lrow -> elog -> Prop) l, 0 < d -> Store l h -> Lay h pop ps nom rs rn -> Forall fit_row rs -> (1 <= lr_f rn + lr_m rn)%Z ->
  (forall h3 h4 pop4 rows4 h6 pop7 rs7 rn7 ps7 nom7 l', lived (rs ++ [rn]) pop h l h3 h4 pop4 rows4 l' -> kin h h3 -> grows h3 h4 -> moved_on h4 h6 -> settles_down h4 pop4 rows4 h6 pop7 (rs7 ++ [rn7]) ->
     let h7 := lo_correct pop7 h6 in Store l' h7 -> Lay h7 pop7 ps7 nom7 rs7 rn7 -> map fm rs7 = map fm rs -> fm rn7 = fm rn -> Ids h6 pop7 -> kept h h7 -> ext l l' -> wp K (lo_tail h7 pop7 (rs7 ++ [rn7]) xb fxb) Q l') ->
  wp K (lo_iter F C p pi (h, pop) fit xb fxb (rs ++ [rn])) Q l.
Proof.
  intros h pop fit xb fxb ps nom rs rn Q l Hd Hs HL Hf Hn HQ. assert (Hi := la_ids _ _ _ _ _ _ HL). assert (Ep := lay_prides _ _ _ _ _ _ HL). assert (L4 := la_ps _ _ _ _ _ _ HL).
  assert (Nn : nom <> []) by (intros ->; destruct (la_nom _ _ _ _ _ _ HL) as (_ & B & D); cbn in B, D; lia).
  assert (Ne : Forall (fun q => q <> []) ps) by (clear - L4 Hf; induction L4; constructor; inversion Hf as [|? ? (A & _) ?]; subst; auto; intros ->; destruct H as (_ & B & _); cbn in B; lia).
  assert (Ro : Forall (fun rp => roam_ok (lr_n (fst rp)) (length (snd rp))) (combine rs ps)).
  { clear - L4 Hf. induction L4 as [|ids r ps rs (A1 & A2 & A3) H2 IH]; cbn [combine]; constructor; inversion Hf as [|? ? (A & B & D & _) ?]; subst; auto. cbn [fst snd]. assert (X := sexes h ids). replace (lr_f r + lr_m r)%Z with (lr_n r) in D by lia. rewrite A1 in D at 2. rewrite Nat2Z.id in D. exact D. }
  unfold lo_iter. apply wp_bind. apply w_hunting; auto. intros h1 l1 R1 S1 K1 E1. assert (I1 : Ids h1 pop) by (eapply Ids_len; [exact Hi|rewrite (proj1 K1); auto]).
  apply wp_bind. apply w_safe; auto. { left. rewrite Ep. auto. } intros h2 l2 R2 S2 K2 E2. assert (I2 : Ids h2 pop) by (eapply Ids_len; [exact I1|rewrite (proj1 K2); auto]).
  apply wp_bind. apply w_roaming; auto. { left. rewrite Ep, removelast_last. exact Ro. } intros h3 l3 R3 S3 K3 E3. assert (I3 : Ids h3 pop) by (eapply Ids_len; [exact I2|rewrite (proj1 K3); auto]).
  assert (K03 : kin h h3) by (eapply kin_trans; [eapply kin_trans; [exact K1|exact K2]|exact K3]).
  apply wp_bind. apply w_mating; auto. intros h4 pop4 rows4 l4 R4 S4 I4 G4 E4. assert (HL3 := lay_kin _ _ _ _ _ _ _ K03 HL).
  destruct (lay_mating _ _ _ _ _ _ _ _ _ _ _ R4 HL3 Nn) as (ps4 & nom4 & rs4 & rn4 & -> & HL4 & X4 & X4n & _ & (cubs & En4)).
  { eapply Forall_impl; [|exact Hf]. intros r (A & _). lia. }
  assert (Nn4 : nom4 <> []) by (rewrite En4; destruct nom; [congruence|discriminate]).
  apply wp_bind. apply (w_defense h4 pop4 ps4 nom4 rs4 rn4); auto.
  { clear - X4 Hf. induction X4 as [|r r' rs rs' H1 H2 IH]; constructor; inversion Hf as [|? ? (A & B & _) ?]; subst; auto. destruct H1 as (Y & Z1 & Z2). injection Y as Y1 Y2. lia. }
  intros h5 pop5 ps5 nom5 rs5 sp Eh5 Ep5 En5 Er5 HL5.
  assert (Is : Ids h4 (concat (map snd sp))).
  { eapply Ids_sub; [exact I4|]. intros i Q1. rewrite (la_pop _ _ _ _ _ _ HL4). apply in_or_app. left. apply In_concat_nth in Q1. destruct Q1 as (k & _ & Q1).
    assert (G := expel_all h4 ps4 rs4 (la_ps _ _ _ _ _ _ HL4)). destruct G as (_ & _ & _ & G & _); [|eapply nth_In_concat; apply G; right; exact Q1].
    clear - X4 Hf. induction X4 as [|r r' rs rs' H1 H2 IH]; constructor; inversion Hf as [|? ? (A & B & _) ?]; subst; auto. destruct H1 as (Y & Z1 & Z2). injection Y as Y1 Y2. lia. }
  assert (M45 : moved_on h4 h5) by (rewrite Eh5; apply moved_tag; auto).
  apply wp_bind. apply (w_migration h5 pop5 ps5 nom5 rs5 _ _ _ HL5).
  { rewrite Er5. clear - X4 Hf. induction X4 as [|r r' rs rs' H1 H2 IH]; cbn [map]; constructor; inversion Hf as [|? ? (A & B & _ & k & Hk & K0) ?]; subst; auto. destruct H1 as (Y & Z1 & Z2). injection Y as Y1 Y2. split; cbn [row_m lr_ef lr_f]; [lia|]. rewrite Y1. eauto. }
  intros h6 pop6 ps6 nom6 rs6 rn6 M56 Er6 En6 HL6. assert (M46 : moved_on h4 h6) by (eapply moved_trans; eauto). assert (S6 := Store_moved _ _ _ S4 M46).
  assert (T1 : (0 <= total (map lr_em rs4))%Z /\ (0 <= total (map lr_ef rs5))%Z).
  { rewrite Er5. clear - X4. unfold total. induction X4 as [|r r' rs rs' H1 H2 IH]; cbn [map fold_right]; [lia|]. destruct H1 as (_ & Z1 & Z2). cbn [row_m lr_ef]. lia. }
  destruct X4n as (Y & Z1 & Z2). injection Y as Y1 Y2. assert (Y3 : (0 <= lr_f rn)%Z /\ (0 <= lr_m rn)%Z) by (destruct (la_nom _ _ _ _ _ _ HL) as (_ & B & D); lia).
  assert (Fn : lr_f rn6 = (lr_f rn4 + total (map lr_ef rs5))%Z /\ lr_m rn6 = (lr_m rn4 + total (map lr_em rs4))%Z /\ lr_ef rn6 = (lr_ef rn4 + total (map lr_ef rs5))%Z /\ lr_em rn6 = (lr_em rn4 + total (map lr_em rs4))%Z) by (rewrite En6; cbn; auto).
  destruct Fn as (F1 & F2 & F3 & F4). assert (Nn6 : nom6 <> []) by (intros ->; destruct (la_nom _ _ _ _ _ _ HL6) as (_ & B & D); cbn in B, D; lia).
  destruct (lay_equilibrium _ _ _ _ _ _ HL6 Nn6 ltac:(lia) ltac:(lia)) as [Eq HL7]. rewrite Eq. apply lay_correct in HL7.
  eapply (HQ h3 h4 pop4 (rs4 ++ [rn4]) h6); [|exact K03|exact G4|exact M46| | |exact HL7| | | | |].
  - exists h1, l1, h2, l2, l3. auto.
  - assert (Em : Forall (fun r => 0 <= lr_em r <= lr_m r)%Z rs4) by (clear - X4 Hf; induction X4 as [|r r' rs rs' H1 H2 IH]; constructor; inversion Hf as [|? ? (A & B & _) ?]; subst; auto; destruct H1 as (Y & Z1 & Z2); injection Y as Y1 Y2; lia).
    assert (L44 := la_ps _ _ _ _ _ _ HL4). assert (Dd := defended_is h4 rs4 ps4 nom4 L44 Em Is). fold sp in Dd; rewrite <- Eh5, <- Ep5, <- En5 in Dd. assert (L55 := la_ps _ _ _ _ _ _ HL5). assert (L66 := la_ps _ _ _ _ _ _ HL6).
    exists ps4, nom4, rs4, rn4, h5, ps5, nom5, ps6, nom6, rn6. eexists. split; [reflexivity|]. split; [exact HL4|]. split; [exact Dd|]. split; [exact M56|].
    assert (Ln : length rs5 = length rs4) by (rewrite Er5; apply map_length). assert (Ln6 : length rs6 = length rs5) by (rewrite Er6; apply map_length). assert (Lq5 := Forall2_len _ _ _ _ _ L55). assert (Lq6 := Forall2_len _ _ _ _ _ L66). split; [lia|]. split.
    { intros k Lk. assert (Nt : forall (a : list (list nat)) b g, Forall2 (counts g) a b -> k < length a -> counts g (nth k a []) (nth k b row0)) by (clear; intros a b g H; revert k; induction H; intros [|k] Lk; cbn in *; try lia; auto; apply IHForall2; lia).
      destruct (Nt _ _ _ L55 Lk) as (_ & A2 & A3). destruct (Nt _ _ _ L66 ltac:(lia)) as (_ & B2 & B3). rewrite Er6 in B2, B3.
      assert (Nx : forall (f : lrow -> lrow) (b : list lrow), k < length b -> nth k (map f b) row0 = f (nth k b row0)) by (clear; intros f b Lk; rewrite (nth_indep _ row0 (f row0)) by (rewrite map_length; auto); apply map_nth). rewrite Nx in B2, B3 by lia. cbn [row_f lr_f lr_m] in B2, B3.
      assert (E5 : lr_ef (nth k rs5 row0) = lr_ef (nth k rs4 row0)) by (rewrite Er5, Nx by lia; reflexivity). lia. }
    assert (E5 : map lr_ef rs5 = map lr_ef rs4) by (rewrite Er5, map_map; reflexivity). rewrite <- E5. split; [exact F3|]. split; [exact F4|]. split; [symmetry; apply sexes|]. split; [exact (la_tag _ _ _ _ _ _ HL6)|]. split; [exact (la_tagn _ _ _ _ _ _ HL6)|]. destruct (la_nom _ _ _ _ _ _ HL6) as (_ & B2 & B3). split; [|reflexivity].
    do 4 eexists. split; [|split; [|reflexivity]]; apply worst_sorted; lia.
  - apply Store_correct. auto.
  - rewrite Er6, Er5. clear - X4. induction X4 as [|r r' rs rs' H1 H2 IH]; cbn [map]; [auto|]. f_equal; auto. destruct H1 as (Y & _). unfold fm. rewrite <- Y. cbn. f_equal; lia.
  - unfold fm. cbn [lr_f lr_m]. f_equal; lia.
  - eapply Ids_len; [exact (la_ids _ _ _ _ _ _ HL7)|]. rewrite correct_len. auto.
  - apply kept_correct. eapply kept_moved; [|exact M46]. eapply kept_grows; [|exact G4]. apply kept_kin. exact K03.
  - eapply ext_trans; [|exact E4]. eapply ext_trans; [|exact E3]. eapply ext_trans; eauto.
Qed.

(** init_population *)
Definition assigned (pr : option Z) (m : bool) (a : lion) : lion :=
  Lion (l_x a) (l_f a) m (match pr with Some k => k | None => l_pride a end) (l_group a) (l_cx a) (l_cf a) (l_prev a) (l_imp a).
Definition assign_from (pr : option Z) (nf : Z) (s : nat) (h : list lion) (ids : list nat) : list lion :=
  fold_left (fun h ji => upd h (snd ji) (assigned pr (negb (Z.of_nat (fst ji) <? nf)%Z) (at_ h (snd ji)))) (combine (seq s (length ids)) ids) h.
Lemma assign_is : forall pr nf h ids, lo_assign pr nf h ids = assign_from pr nf 0 h ids.
Proof. reflexivity. Qed.
Lemma assign_len : forall pr nf ids s h, length (assign_from pr nf s h ids) = length h.
Proof. intros pr nf. induction ids as [|i ids IH]; intros s h; auto. unfold assign_from in *. cbn [length seq combine fold_left]. rewrite IH. apply upd_length. Qed.
Lemma assign_other : forall pr nf ids s h i, ~ In i ids -> at_ (assign_from pr nf s h ids) i = at_ h i.
Proof.
  intros pr nf. induction ids as [|j ids IH]; intros s h i H; auto. unfold assign_from in *. cbn [length seq combine fold_left fst snd]. rewrite IH by (intros Q; apply H; right; auto). apply at_upd_other. intros ->. apply H. left; auto.
Qed.
Definition same_but (a b : lion) : Prop := l_x b = l_x a /\ l_f b = l_f a /\ l_cx b = l_cx a /\ l_cf b = l_cf a /\ l_prev b = l_prev a /\ l_imp b = l_imp a.
Lemma assign_same : forall pr nf ids s h i, same_but (at_ h i) (at_ (assign_from pr nf s h ids) i).
Proof.
  intros pr nf. induction ids as [|j ids IH]; intros s h i; [repeat split|]. unfold assign_from in *. cbn [length seq combine fold_left fst snd]. set (h1 := upd h j _). assert (X : same_but (at_ h i) (at_ h1 i)).
  { unfold h1. destruct (Compare_dec.le_lt_dec (length h) j) as [L|L].
    - assert (Y : forall a, upd h j a = h) by (intros a; clear - L; revert j L; induction h as [|b h IH]; intros [|j] L; cbn in *; auto; [lia|]; f_equal; apply IH; lia). rewrite Y. repeat split.
    - destruct (Nat.eq_dec j i) as [->|N]; [rewrite at_upd_same by auto|rewrite at_upd_other by auto]; repeat split. }
  specialize (IH (S s) h1 i). destruct X as (A1 & A2 & A3 & A4 & A5 & A6), IH as (B1 & B2 & B3 & B4 & B5 & B6). unfold same_but. rewrite B1, B2, B3, B4, B5, B6. auto 10.
Qed.
Lemma assign_in : forall pr nf ids s h i, NoDup ids -> Ids h ids -> In i ids -> exists m, at_ (assign_from pr nf s h ids) i = assigned pr m (at_ h i).
Proof.
  intros pr nf. induction ids as [|j ids IH]; intros s h i ND Hi H; [destruct H|]. inversion ND as [|? ? N1 N2]; subst. inversion Hi as [|? ? I1 I2]; subst. unfold assign_from. cbn [length seq combine fold_left fst snd]. fold (assign_from pr nf (S s) (upd h j (assigned pr (negb (Z.of_nat s <? nf)%Z) (at_ h j))) ids).
  destruct H as [<-|H].
  - rewrite assign_other by auto. rewrite at_upd_same by auto. eauto.
  - destruct (IH (S s) (upd h j (assigned pr (negb (Z.of_nat s <? nf)%Z) (at_ h j))) i N2) as (m & E); auto; [eapply Ids_len; [exact I2|rewrite upd_length; auto]|]. exists m. rewrite E. rewrite at_upd_other by (intros ->; contradiction). reflexivity.
Qed.
Lemma assign_females : forall pr nf ids s h, NoDup ids -> Ids h ids -> females (assign_from pr nf s h ids) ids = firstn (Z.to_nat (nf - Z.of_nat s)) ids.
Proof.
  intros pr nf. induction ids as [|j ids IH]; intros s h ND Hi; [cbn; rewrite firstn_nil; auto|]. inversion ND as [|? ? N1 N2]; subst. inversion Hi as [|? ? I1 I2]; subst. unfold assign_from. cbn [length seq combine fold_left fst snd]. set (h1 := upd h j _).
  fold (assign_from pr nf (S s) h1 ids). unfold females. cbn [filter]. rewrite assign_other by auto. unfold h1 at 1. rewrite at_upd_same by auto. cbn [assigned l_male]. rewrite negb_involutive.
  fold (females (assign_from pr nf (S s) h1 ids) ids). rewrite IH; auto; [|unfold h1; eapply Ids_len; [exact I2|rewrite upd_length; auto]]. destruct (Z.of_nat s <? nf)%Z eqn:B.
  - apply Z.ltb_lt in B. replace (Z.to_nat (nf - Z.of_nat s)) with (S (Z.to_nat (nf - Z.of_nat (S s)))) by lia. reflexivity.
  - apply Z.ltb_ge in B. replace (Z.to_nat (nf - Z.of_nat s)) with 0 by lia. replace (Z.to_nat (nf - Z.of_nat (S s))) with 0 by lia. reflexivity.
Qed.
(** how many females a slice of the population gets *)
Definition females_of (k : nat) (size nf : Z) : Prop :=
  py_round (if k <? lo_prides p then fmul F (lo_female p) (fz F size) else fmul F (fsub F (flit F 1 1) (lo_female p)) (fz F size)) = Ret nf.
Lemma w_settle_x : forall ks (Q : list lion * list lrow -> elog -> Prop) l h rows, (forall e, e = EValue \/ e = EOverflow -> K_exn K e) -> Store l h ->
  (forall h' rows', length h' = length h -> Store l h' -> (forall i, same_but (at_ h i) (at_ h' i)) -> Q (h', rows') l) -> wp K (foldM (lo_settle1 F p) ks (h, rows)) Q l.
Proof.
  intros ks Q l h rows Hx Hs HQ. apply (w_folds _ _ _ _ (fun _ _ _ _ _ => True) (fun s l1 => l1 = l /\ length (fst s) = length h /\ Store l (fst s) /\ forall i, same_but (at_ h i) (at_ (fst s) i))).
  - cbn [fst]. repeat split; auto.
  - intros [k [size ids]] [h1 rows1] l1 _ (-> & L1 & S1 & B1). unfold lo_settle1. apply wp_bind. apply w_lift_x.
    + intros e Ee. apply Hx. unfold py_round in Ee. destruct (if _ <? _ then _ else _); inversion Ee; auto.
    + intros nf _. cbn [fst snd] in *. apply w_done. split; auto. split; auto. cbn [fst]. rewrite assign_is. split; [rewrite assign_len; auto|]. split.
      * apply Forall_forall. intros a Ha. destruct (In_nth _ _ lion0 Ha) as (i & Hi & <-). rewrite assign_len in Hi. set (pr := if _ : bool then _ else _). destruct (assign_same pr nf ids 0 h1 i) as (E1 & E2 & E3 & E4 & _). eapply okl_alike; eauto. apply Store_at; auto.
      * intros i. set (pr := if _ : bool then _ else _). destruct (assign_same pr nf ids 0 h1 i) as (E1 & E2 & E3 & E4 & E5 & E6). destruct (B1 i) as (A1 & A2 & A3 & A4 & A5 & A6). unfold same_but. rewrite E1, E2, E3, E4, E5, E6. auto 10.
  - intros [h1 rows1] l1 _ (-> & L1 & S1 & B1). apply HQ; auto.
Qed.
Definition settled (k : nat) (h' : list lion) (ids : list nat) (r : lrow) : Prop :=
  counts h' ids r /\ lr_ef r = 0%Z /\ lr_em r = 0%Z /\ exists nf, females_of k (Z.of_nat (length ids)) nf /\ lr_f r = Z.min (Z.max nf 0) (Z.of_nat (length ids)).
Lemma w_settle : forall idss k (Q : list lion * list lrow -> elog -> Prop) l h rows, Store l h -> NoDup (concat idss) -> Ids h (concat idss) ->
  (forall j, j < length idss -> exists nf, females_of (k + j) (Z.of_nat (length (nth j idss []))) nf) ->
  (forall h' rs, length h' = length h -> Store l h' -> (forall i, same_but (at_ h i) (at_ h' i)) -> length rs = length idss ->
     (forall j, j < length idss -> settled (k + j) h' (nth j idss []) (nth j rs row0)) -> (forall i, ~ In i (concat idss) -> at_ h' i = at_ h i) ->
     (forall j i, In i (nth j idss []) -> l_pride (at_ h' i) = if k + j <? lo_prides p then Z.of_nat (k + j) else l_pride (at_ h i)) -> Q (h', rows ++ rs) l) ->
  wp K (foldM (lo_settle1 F p) (combine (seq k (length idss)) (combine (map (fun ids => Z.of_nat (length ids)) idss) idss)) (h, rows)) Q l.
Proof.
  induction idss as [|ids idss IH]; intros k Q l h rows Hs ND Hi Hf HQ; cbn [length seq map combine foldM].
  - apply w_done. rewrite <- (app_nil_r rows). apply HQ; auto; [repeat split|intros j L; cbn in L; lia|intros [|j] i []].
  - cbn [concat] in ND, Hi. apply nd_app in ND. destruct ND as (N1 & N2 & N3). apply Forall_app in Hi. destruct Hi as [I1 I2]. destruct (Hf 0 ltac:(cbn; lia)) as (nf & Hnf). rewrite Nat.add_0_r in Hnf. cbn [nth] in Hnf.
    apply wp_bind. unfold lo_settle1 at 1. apply wp_bind. apply w_lift_x; [intros e Ee; unfold females_of in Hnf; rewrite Hnf in Ee; discriminate|]. intros nf' Enf. unfold females_of in Hnf. rewrite Hnf in Enf. injection Enf as <-. apply w_done.
    rewrite assign_is. set (pr := if k <? lo_prides p then _ else _). set (h1 := assign_from pr nf 0 h ids). set (r := {| lr_n := _ |}). assert (L1 : length h1 = length h) by apply assign_len.
    assert (B1 : forall i, same_but (at_ h i) (at_ h1 i)) by (intros i; apply assign_same).
    assert (S1 : Store l h1). { apply Forall_forall. intros a Ha. destruct (In_nth _ _ lion0 Ha) as (i & Hj & <-). destruct (B1 i) as (E1 & E2 & E3 & E4 & _). eapply okl_alike; eauto. apply Store_at; auto. rewrite <- L1. exact Hj. }
    apply IH; auto.
    + eapply Ids_len; [exact I2|lia].
    + intros j Lj. destruct (Hf (S j) ltac:(cbn; lia)) as (nf1 & X). exists nf1. replace (S k + j) with (k + S j) by lia. exact X.
    + intros h' rs L' S' B' Lr Hs' Ho Ht. rewrite <- app_assoc. cbn [app]. apply HQ; auto.
      * rewrite L'. exact L1.
      * intros i. destruct (B1 i) as (A1 & A2 & A3 & A4 & A5 & A6), (B' i) as (E1 & E2 & E3 & E4 & E5 & E6). unfold same_but. rewrite E1, E2, E3, E4, E5, E6. auto 10.
      * cbn [length]. rewrite Lr. auto.
      * intros [|j] Lj; cbn [nth]; [|replace (k + S j) with (S k + j) by lia; apply Hs'; cbn in Lj; lia]. rewrite Nat.add_0_r.
        assert (Sm : forall i, In i ids -> l_male (at_ h' i) = l_male (at_ h1 i)) by (intros i Q1; rewrite Ho; auto; intros Q2; exact (N3 i Q1 Q2)).
        split; [|split; [reflexivity|split; [reflexivity|]]].
        { eapply counts_same; [exact Sm|]. repeat split. }
        { exists nf. split; [exact Hnf|]. cbn [r lr_f]. unfold h1. rewrite assign_females by auto. rewrite firstn_length. change (Z.of_nat 0) with 0%Z. lia. }
      * intros i Q1. cbn [concat] in Q1. rewrite Ho by (intros Q2; apply Q1; apply in_or_app; auto). apply assign_other. intros Q2. apply Q1. apply in_or_app; auto.
      * intros [|j] i Q1; cbn [nth] in Q1.
        { rewrite Nat.add_0_r, Ho by (intros Q2; exact (N3 i Q1 Q2)). destruct (assign_in pr nf ids 0 h i N1 I1 Q1) as (m & E). fold h1 in E. rewrite E. cbn [assigned l_pride]. unfold pr. destruct (k <? lo_prides p); auto. }
        { rewrite (Ht j i Q1). replace (k + S j) with (S k + j) by lia. destruct (S k + j <? lo_prides p); auto. unfold h1. rewrite assign_other; auto. intros Q2. apply (N3 i Q2). eapply nth_In_concat; eauto. }
Qed.
End Rel.

(** ** The invariants of runs *)
(** the pride sizes: the lions that are not nomads, shared out evenly *)
Definition pride_size (n k ns : Z) (i : nat) : Z := ((n - ns) / k + if Z.of_nat i <? (n - ns) mod k then 1 else 0)%Z.
Definition sizes_of (p : loa_par) (ns : Z) : list Z := map (pride_size (Z.of_nat (lo_n p)) (Z.of_nat (lo_prides p)) ns) (seq 0 (lo_prides p)).
Lemma count_lt : forall k s m, total (map (fun i => if Z.of_nat i <? m then 1 else 0)%Z (seq s k)) = Z.max 0 (Z.min (Z.of_nat k) (m - Z.of_nat s)).
Proof.
  induction k as [|k IH]; intros s m; cbn [seq map total fold_right]; [lia|]. fold (total (map (fun i => if (Z.of_nat i <? m)%Z then 1%Z else 0%Z) (seq (S s) k))). rewrite IH. destruct (Z.of_nat s <? m)%Z eqn:B; [apply Z.ltb_lt in B|apply Z.ltb_ge in B]; lia.
Qed.
Lemma total_plus : forall A (f g : A -> Z) xs, total (map (fun i => f i + g i)%Z xs) = (total (map f xs) + total (map g xs))%Z.
Proof. intros A f g xs. unfold total. induction xs; cbn [map fold_right]; lia. Qed.
Lemma total_const : forall A (c : Z) (xs : list A), total (map (fun _ => c) xs) = (Z.of_nat (length xs) * c)%Z.
Proof. intros A c xs. unfold total. induction xs; cbn [map fold_right length]; lia. Qed.
Lemma total_app : forall a b, total (a ++ b) = (total a + total b)%Z.
Proof. intros a b. unfold total. induction a; cbn [app fold_right]; lia. Qed.
Lemma sizes_total : forall p ns, 0 < lo_prides p -> total (sizes_of p ns) = (Z.of_nat (lo_n p) - ns)%Z.
Proof.
  intros p ns Hp. unfold sizes_of, pride_size. rewrite total_plus, total_const, count_lt, seq_length. set (k := Z.of_nat (lo_prides p)). set (q := (Z.of_nat (lo_n p) - ns)%Z). assert (k > 0)%Z by (unfold k; lia).
  assert (B := Z.mod_pos_bound q k ltac:(lia)). assert (D := Z.div_mod q k ltac:(lia)). change (Z.of_nat 0) with 0%Z. rewrite Z.max_r by lia. rewrite Z.min_r by lia. lia.
Qed.
Lemma sizes_pos : forall p ns s, 0 < lo_prides p -> (ns <= Z.of_nat (lo_n p))%Z -> In s (sizes_of p ns) -> (0 <= s)%Z.
Proof. intros p ns s Hp Hn Hs. apply in_map_iff in Hs. destruct Hs as (i & <- & _). unfold pride_size. assert (0 <= (Z.of_nat (lo_n p) - ns) / Z.of_nat (lo_prides p))%Z by (apply Z.div_pos; lia). destruct (_ <? _)%Z; lia. Qed.
Lemma split_sizes : forall A (sizes : list Z) (xs : list A), Forall (fun s => 0 <= s)%Z sizes -> total sizes = Z.of_nat (length xs) -> exists xss, concat xss = xs /\ map (fun ids => Z.of_nat (length ids)) xss = sizes.
Proof.
  intros A. induction sizes as [|s sizes IH]; intros xs H T; cbn [total fold_right] in T.
  - exists []. destruct xs; [auto|cbn in T; lia].
  - inversion H as [|? ? H1 H2]; subst. fold (total sizes) in T. assert (X : (0 <= total sizes)%Z) by (clear - H2; unfold total; induction H2; cbn; lia).
    destruct (IH (skipn (Z.to_nat s) xs) H2) as (xss & E1 & E2); [rewrite skipn_length; lia|]. exists (firstn (Z.to_nat s) xs :: xss). cbn [concat map]. rewrite E1, E2, firstn_skipn, firstn_length. split; auto. f_equal. lia.
Qed.
Lemma cut_all : forall A (xss : list (list A)), cut 0 (map (fun ids => Z.of_nat (length ids)) xss) (concat xss) = xss.
Proof.
  intros A xss. assert (X := cut_concat A xss (map (fun ids => LRow (Z.of_nat (length ids)) 0 0 0 0) xss) [] [] 0%Z). rewrite map_map in X. cbn [lr_n app] in X. rewrite app_nil_r in X. apply X; [|auto]. clear X. induction xss; constructor; auto.
Qed.

Section LoaRun.
Variables (F : fops) (C : cfg) (p : loa_par) (pi : num) (X : exn -> Prop).
Hypothesis HC : cfg_ok C.
Hypothesis HO : X EOverflow.
Let K := KBX C X.
Let any (_ _ : vec) : Prop := True.
Let anyv (_ : vec) (_ : num) (_ _ : elog) : Prop := True.
Let nn (v : num) : Prop := v <> NaN.
Lemma k_rep : forall z (Q : vec -> elog -> Prop) l, length z = c_dim C -> (forall y, any z y -> inside C y -> Q y l) -> wp K (repair z) Q l.
Proof. intros z Q l L H. apply w_repair; auto. intros y Hy. apply H; [exact I|auto]. Qed.
Lemma k_eval : forall x (Q : num -> elog -> Prop) l, inside C x -> (forall v l', anyv x v l l' -> ext l l' -> Seen l' x v -> nn v -> Q v l') -> wp K (eval x) Q l.
Proof. intros x Q l Hx H. apply w_eval; auto. intros v l' Hv. apply H; [exact I|eapply Evald_ext; eauto|eapply Evald_seen; eauto|eapply Evald_nan; eauto]. Qed.
Lemma k_over : K_exn K EOverflow.
Proof. right. exact HO. Qed.
(** the previous best values *)
Definition PrevInv (l : elog) (h : list lion) (pop : list nat) : Prop := (forall x v, Seen l x v -> v <> NaN -> fleb v (fadd F v (flit F 1 1)) = true) ->
  Forall (fun a => fleb (l_f a) (l_prev a) = true) h /\ forall i, In i pop -> l_prev (at_ h i) = l_f (at_ h i).
Record LoaInv (hp : list lion * list nat) (fit : list num) (xb : vec) (fxb : num) (rows : list lrow) (l : elog) : Prop := {
  li_store : Store C nn l (fst hp); li_ids : Ids (fst hp) (snd hp); li_fit : fit = map (fun i => l_f (at_ (fst hp) i)) (snd hp);
  li_xb : inside C xb; li_seen : Seen l xb fxb; li_val : fxb <> NaN; li_best : forall i, In i (snd hp) -> fleb fxb (l_f (at_ (fst hp) i)) = true; li_prev : PrevInv l (fst hp) (snd hp) }.
Lemma fits_seen : forall l h pop, Store C nn l h -> Ids h pop -> Forall2 (SeenN l) (map (fun i => l_x (at_ h i)) pop) (map (fun i => l_f (at_ h i)) pop).
Proof. intros l h pop Hs Hi. induction Hi as [|i pop Hi H IH]; cbn [map]; constructor; auto. destruct (Store_at _ _ _ _ _ Hs Hi). split; auto. Qed.
Lemma fits_in : forall l h pop x, Store C nn l h -> Ids h pop -> In x (map (fun i => l_x (at_ h i)) pop) -> inside C x.
Proof. intros l h pop x Hs Hi Hx. apply in_map_iff in Hx. destruct Hx as (i & <- & Hx). destruct (Store_at _ _ _ _ _ Hs (Ids_in _ _ _ Hi Hx)). auto. Qed.
(** the rest of an iteration after the phases *)
Lemma w_tail : forall h pop rows xb fxb (Q : (list lion * list nat) * list num * vec * num * list lrow -> elog -> Prop) l, X EValue \/ pop <> [] -> Store C nn l h -> Ids h pop -> inside C xb -> Seen l xb fxb -> fxb <> NaN -> PrevInv l h pop ->
  (forall fit' xb' fxb', LoaInv (h, pop) fit' xb' fxb' rows l -> fleb fxb' fxb = true -> Q ((h, pop), fit', xb', fxb', rows) l) -> wp K (lo_tail h pop rows xb fxb) Q l.
Proof.
  intros h pop rows xb fxb Q l Hne Hs Hi Hx Sx Nx Hp HQ. unfold lo_tail. cbv zeta. apply wp_bind. destruct pop as [|i0 pop0]; [destruct Hne as [Hv|Hv]; [cbn; right; exact Hv|congruence]|]. remember (i0 :: pop0) as pop eqn:Ep.
  apply w_get_best_seen; [subst pop; discriminate|apply fits_seen; auto|split; auto|]. intros x f [S1 N1] Ix L1 G1. apply w_done. apply HQ; auto. constructor; cbn [fst snd]; auto.
  - destruct Ix as [Ix| ->]; auto. eapply fits_in; eauto.
  - intros i Hin. apply G1. apply in_map_iff. eauto.
Qed.
Lemma prev_correct : forall pop h, Forall (fun a => fleb (l_f a) (l_prev a) = true) h -> Ids h pop ->
  Forall (fun a => fleb (l_f a) (l_prev a) = true) (lo_correct pop h) /\ forall i, In i pop -> l_prev (at_ (lo_correct pop h) i) = l_f (at_ (lo_correct pop h) i).
Proof.
  assert (Eq : forall a b, fleb a b = true -> fltb a b = false -> b = a).
  { intros a b H1 H2. destruct a, b; cbn in *; try discriminate; auto. apply Z.leb_le in H1. apply Z.ltb_ge in H2. f_equal. lia. }
  assert (G : forall pop h (P : nat -> Prop), (forall i, P i -> i < length h /\ l_prev (at_ h i) = l_f (at_ h i)) -> Forall (fun a => fleb (l_f a) (l_prev a) = true) h -> Ids h pop ->
    Forall (fun a => fleb (l_f a) (l_prev a) = true) (lo_correct pop h) /\ forall i, P i \/ In i pop -> l_prev (at_ (lo_correct pop h) i) = l_f (at_ (lo_correct pop h) i)).
  { induction pop as [|j pop IH]; intros h P HP Hf Hi; [split; [exact Hf|intros i [Q|[]]; apply HP; auto]|]. inversion Hi as [|? ? I1 I2]; subst. unfold lo_correct. cbn [fold_left]. fold (lo_correct pop (lo_correct1 h j)).
    assert (Hj : fleb (l_f (at_ h j)) (l_prev (at_ h j)) = true) by (apply (proj1 (Forall_forall _ _) Hf); apply nth_In; auto).
    assert (Cj : l_prev (at_ (lo_correct1 h j) j) = l_f (at_ (lo_correct1 h j) j) /\ fleb (l_f (at_ (lo_correct1 h j) j)) (l_prev (at_ (lo_correct1 h j) j)) = true).
    { unfold lo_correct1. rewrite at_upd_same by auto. destruct (fltb (l_f (at_ h j)) (l_prev (at_ h j))) eqn:B; cbn [l_prev l_f]; split; auto. destruct (l_f (at_ h j)); cbn in *; try discriminate; auto. apply Z.leb_refl. }
    destruct (IH (lo_correct1 h j) (fun i => P i \/ i = j)) as [G1 G2].
    - intros i Q. destruct (Nat.eq_dec i j) as [->|N]; [split; [unfold lo_correct1; rewrite upd_length; auto|apply Cj]|]. destruct Q as [Q|Q]; [|congruence]. destruct (HP i Q) as [A B]. split; [unfold lo_correct1; rewrite upd_length; auto|]. unfold lo_correct1. rewrite at_upd_other by auto. exact B.
    - apply Forall_forall. intros a Ha. destruct (In_nth _ _ lion0 Ha) as (i & Li & <-). fold (at_ (lo_correct1 h j) i). unfold lo_correct1 in Li. rewrite upd_length in Li. destruct (Nat.eq_dec j i) as [<-|N]; [apply Cj|]. unfold lo_correct1. rewrite at_upd_other by auto. apply (proj1 (Forall_forall _ _) Hf). apply nth_In; auto.
    - eapply Ids_len; [exact I2|unfold lo_correct1; rewrite upd_length; auto].
    - split; auto. intros i [Q|[<-|Q]]; apply G2; auto. }
  intros pop h Hf Hi. destruct (G pop h (fun _ => False) ltac:(intros i []) Hf Hi) as [G1 G2]. split; auto.
Qed.
(** where the cubs come from *)
Lemma born_all : forall RP EV rows pop h l h' pop' rows' l', all_mate F C p RP EV rows pop h l (h', pop', rows') l' -> exists new, h' = h ++ new /\ Forall (fun b => l_prev b = fadd F (l_f b) (flit F 1 1)) new.
Proof.
  intros RP EV rows pop h l h' pop' rows' l' (h1 & new & rows1 & l1 & cubs & r' & H1 & H2 & _).
  assert (G : forall ks s l s' l', folds (mated_pride F C p RP EV) ks s l s' l' -> exists new, fst (fst s') = fst (fst s) ++ new /\ Forall (fun b => l_prev b = fadd F (l_f b) (flit F 1 1)) new).
  { clear. intros ks s l s' l' H. induction H as [s l|[k [r ids]] ks [[h ns] rows] l s1 l1 s' l' H1 H2 IH]; [exists []; rewrite app_nil_r; auto|]. destruct s1 as [[h1 ns1] rows1]. destruct IH as (n2 & E2 & F2). cbn [fst] in *. cbn [mated_pride] in H1.
    destruct (lr_f r =? 0)%Z; [destruct H1 as (-> & _); eauto|]. destruct H1 as (cubs & r' & H1 & _). destruct (folds_born _ _ _ _ _ _ _ _ _ _ _ _ _ H1) as (n1 & E1 & _ & F1). cbn [fst] in E1. exists (n1 ++ n2). rewrite E2, E1, app_assoc. split; auto.
    apply Forall_app. split; auto. eapply Forall_impl; [|exact F1]. intros b (_ & Hb & _). exact Hb. }
  destruct (G _ _ _ _ _ H1) as (n1 & E1 & F1). destruct (folds_born _ _ _ _ _ _ _ _ _ _ _ _ _ H2) as (n2 & E2 & _ & F2). cbn [fst] in *. exists (n1 ++ n2). rewrite E2, E1, app_assoc. split; auto. apply Forall_app. split; auto. eapply Forall_impl; [|exact F2]. intros b (_ & Hb & _). exact Hb.
Qed.
Lemma prev_iter : forall RP EV rows pop h l h3 h4 pop4 rows4 l' h6 pop7, ext l l' -> PrevInv l h pop -> lived F C p pi RP EV rows pop h l h3 h4 pop4 rows4 l' -> kin h h3 -> grows h3 h4 -> moved_on h4 h6 -> Ids h6 pop7 ->
  Store C nn l' (lo_correct pop7 h6) -> PrevInv l' (lo_correct pop7 h6) pop7.
Proof.
  intros RP EV rows pop h l h3 h4 pop4 rows4 l' h6 pop7 Hext Hp (h1 & l1 & h2 & l2 & l3 & _ & _ & _ & Hm) [Lk Kk] _ (Lm & M1 & M2) Hi Hs Hadd. destruct (Hp (fun x v Hv => Hadd x v (Seen_ext _ _ _ _ Hext Hv))) as [P1 _]. destruct (born_all _ _ _ _ _ _ _ _ _ _ Hm) as (new & E4 & B).
  assert (N6 : forall i, i < length h6 -> l_f (at_ h6 i) <> NaN /\ Seen l' (l_x (at_ h6 i)) (l_f (at_ h6 i))).
  { intros i Li. assert (Li' : i < length (lo_correct pop7 h6)) by (rewrite correct_len; auto). destruct (correct_alike pop7 h6 i) as (E' & E & _). rewrite <- E, <- E'. split; apply (Store_at _ _ _ _ _ Hs Li'). }
  set (ok := fun a => l_f a <> NaN /\ Seen l' (l_x a) (l_f a) -> fleb (l_f a) (l_prev a) = true).
  assert (P3 : Forall ok h3).
  { apply Forall_forall. intros a Ha. destruct (In_nth _ _ lion0 Ha) as (i & Li & <-). fold (at_ h3 i). rewrite Lk in Li. destruct (Kk i) as [_ _ Q1 _ Q2]. unfold ok. rewrite Q1. assert (Q3 : fleb (l_f (at_ h i)) (l_prev (at_ h i)) = true) by (apply (proj1 (Forall_forall _ _) P1); apply nth_In; auto).
    destruct Q2 as [[_ ->]|Q2]; auto. intros _. apply fltb_fleb in Q2. eapply fleb_trans; eauto. }
  assert (P4 : Forall ok h4) by (rewrite E4; apply Forall_app; split; [exact P3|]; eapply Forall_impl; [|exact B]; intros b Hb [N1 N2]; rewrite Hb; eauto).
  assert (P6 : Forall (fun a => fleb (l_f a) (l_prev a) = true) h6).
  { apply Forall_forall. intros a Ha. destruct (In_nth _ _ lion0 Ha) as (i & Li & <-). fold (at_ h6 i). assert (N := N6 i Li).
    assert (Y : exists j, j < length h4 /\ alike (at_ h4 j) (at_ h6 i)) by (destruct (Compare_dec.le_lt_dec (length h4) i) as [Q|Q]; [apply M2; lia|exists i; auto]). destruct Y as (j & Lj & Y0 & Y1 & _ & _ & _ & Y2 & _). rewrite Y1, Y2. rewrite Y0, Y1 in N.
    apply (proj1 (Forall_forall _ _) P4); auto. apply nth_In; auto. }
  apply prev_correct; auto.
Qed.
(** an iteration, whatever the parameters *)
Lemma loa_iter_x : X EIndex -> X EValue -> forall hp fit xb fxb rows l, LoaInv hp fit xb fxb rows l ->
  wp K (lo_iter F C p pi hp fit xb fxb rows) (fun a l' => let '(hp', fit', xb', fxb', rows') := a in LoaInv hp' fit' xb' fxb' rows' l' /\ kept (fst hp) (fst hp') /\ fleb fxb' fxb = true) l.
Proof.
  intros Hx Hv [h pop] fit xb fxb rows l [S1 I1 F1 X1 X2 X3 B1 P1]. cbn [fst snd] in *. apply (w_iter_x F C p pi any anyv K nn); auto; [exact k_rep|exact k_eval|exact k_over|right; exact Hx|right; exact Hv|].
  intros h3 h4 pop4 rows4 h6 pop6 pop7 rows6 rows7 l' Hl Hk Hg Hi4 Hm Heq h7 S7 I7 I6 Kp Ex. apply w_tail; auto; [eapply Seen_ext; eauto|eapply prev_iter; eauto].
Qed.
(** an iteration with parameters that suit the prides *)
Definition LoaLay (T : list (Z * Z)) (tn : Z * Z) (hp : list lion * list nat) (rows : list lrow) : Prop :=
  exists ps nom rs rn, rows = rs ++ [rn] /\ Lay (fst hp) (snd hp) ps nom rs rn /\ map fm rs = T /\ fm rn = tn /\ Forall (fit_row F p) rs /\ (1 <= fst tn + snd tn)%Z.
Lemma fit_fm : forall rs rs', map fm rs' = map fm rs -> Forall (fit_row F p) rs -> Forall (fit_row F p) rs'.
Proof.
  induction rs as [|r rs IH]; intros [|r' rs'] E H; try discriminate; constructor; inversion H; subst; cbn [map] in E; injection E as E1 E2 E3; [|eapply IH; eauto]. unfold fit_row in *. rewrite E1, E2. auto.
Qed.
Lemma loa_iter_good : 0 < c_dim C -> forall T tn hp fit xb fxb rows l, LoaInv hp fit xb fxb rows l -> LoaLay T tn hp rows ->
  wp K (lo_iter F C p pi hp fit xb fxb rows) (fun a l' => let '(hp', fit', xb', fxb', rows') := a in LoaInv hp' fit' xb' fxb' rows' l' /\ LoaLay T tn hp' rows' /\ kept (fst hp) (fst hp') /\ fleb fxb' fxb = true) l.
Proof.
  intros Hd T tn [h pop] fit xb fxb rows l [S1 I1 F1 X1 X2 X3 B1 P1] (ps & nom & rs & rn & -> & HL & ET & En & Hf & Hn). cbn [fst snd] in *. apply (w_iter_good F C p pi any anyv K nn) with (ps := ps) (nom := nom); auto; [exact k_rep|exact k_eval|exact k_over|subst tn; exact Hn|].
  intros h3 h4 pop4 rows4 h6 pop7 rs7 rn7 ps7 nom7 l' Hl Hk Hg Hm _ h7 S7 HL7 E1 E2 I6 Kp Ex. assert (I7 := la_ids _ _ _ _ _ _ HL7). apply w_tail; auto; [right|eapply Seen_ext; eauto|eapply prev_iter; eauto|].
  - intros Z. assert (Q := la_nom _ _ _ _ _ _ HL7). assert (Q2 := la_pop _ _ _ _ _ _ HL7). rewrite Z in Q2. symmetry in Q2. apply app_eq_nil in Q2. destruct Q2 as [_ Q2]. rewrite Q2 in Q. destruct Q as (_ & A & B). cbn in A, B. rewrite <- En, <- E2 in Hn. cbn [fm fst snd] in Hn. lia.
  - intros fit' xb' fxb' H1 H2. split; auto. split; auto. exists ps7, nom7, rs7, rn7. cbn [fst snd]. split; auto. split; auto. split; [congruence|]. split; [congruence|]. split; auto. eapply fit_fm; eauto.
Qed.
(** init_population *)
Lemma new_store : forall pop l, Forall (IOk C l) pop -> Cov l (map snd pop) PInf -> Store C nn l (map new_lion pop).
Proof.
  intros pop l H Hc. apply Forall_map. eapply Forall_impl; [|exact H]. intros a [A1 A2]. constructor; cbn; auto; [apply inside_len; auto|apply fltb_irrefl|eapply Seen_not_nan; eauto].
Qed.
Lemma w_begin : forall (h : list lion) (pop : list ind) rows (Q : vec * num -> elog -> Prop) l, pop <> [] -> length h = length pop -> Forall (IOk C l) pop -> Cov l (map snd pop) PInf -> Store C nn l h -> (forall i, same_but (at_ (map new_lion pop) i) (at_ h i)) ->
  (forall xb fxb, LoaInv (h, seq 0 (length pop)) (map snd pop) xb fxb rows l -> Good l xb fxb -> Q (xb, fxb) l) ->
  wp K (lift (get_best (map (fun i => l_x (at_ h i)) (seq 0 (length pop))) (map snd pop) None PInf)) Q l.
Proof.
  intros h pop rows Q l Hne Lh Ho Hc Hs Hb HQ.
  assert (Ax : map (fun i => l_x (at_ h i)) (seq 0 (length pop)) = map fst pop).
  { rewrite <- (map_nth_seq _ pop ([], NaN)) at 2. rewrite map_map. apply map_ext_in. intros i Hi. apply in_seq in Hi. destruct (Hb i) as (E & _). rewrite E. unfold at_. rewrite (nth_indep _ lion0 (new_lion ([], NaN))) by (rewrite map_length; lia). rewrite map_nth. reflexivity. }
  assert (Af : map (fun i => l_f (at_ h i)) (seq 0 (length pop)) = map snd pop).
  { rewrite <- (map_nth_seq _ pop ([], NaN)) at 2. rewrite map_map. apply map_ext_in. intros i Hi. apply in_seq in Hi. destruct (Hb i) as (_ & E & _). rewrite E. unfold at_. rewrite (nth_indep _ lion0 (new_lion ([], NaN))) by (rewrite map_length; lia). rewrite map_nth. reflexivity. }
  assert (Ap : forall i, i < length pop -> l_prev (at_ h i) = l_f (at_ h i)).
  { intros i Hi. destruct (Hb i) as (_ & E1 & _ & _ & E2 & _). rewrite E1, E2. unfold at_. rewrite (nth_indep _ lion0 (new_lion ([], NaN))) by (rewrite map_length; lia). rewrite map_nth. reflexivity. }
  rewrite Ax. assert (HF : Forall2 (Seen l) (map fst pop) (map snd pop)) by (clear - Ho; induction Ho as [|a pop [_ Ha]]; cbn; constructor; auto).
  apply w_get_best0_cov; auto; [destruct pop; [congruence|discriminate]|]. intros x f G Hx. apply HQ; auto. destruct G as (G1 & G2 & G3). constructor; cbn [fst snd]; auto.
  - apply Forall_forall. intros i Hi. apply in_seq in Hi. lia.
  - apply in_map_iff in Hx. destruct Hx as (a & <- & Ha). apply (proj1 (Forall_forall _ _) Ho a Ha).
  - intros i Hi. apply in_seq in Hi. assert (Li : i < length h) by lia. destruct (Store_at _ _ _ _ _ Hs Li) as [_ [Q1|Q1] _ _ Q3]; [rewrite Q1; destruct f; auto; contradiction|eapply G2; eauto].
  - intros Hadd. split; [|intros i Hi; apply in_seq in Hi; apply Ap; lia]. apply Forall_forall. intros a Ha. destruct (In_nth _ _ lion0 Ha) as (i & Li & <-). fold (at_ h i). rewrite (Ap i) by lia. apply fleb_refl. apply (ok_val _ _ _ _ (Store_at _ _ _ _ _ Hs Li)).
Qed.
Lemma loa_init_x : X EValue -> X EZeroDiv -> 0 < lo_n p -> init_c K (loa F C p pi) LoaInv.
Proof.
  intros Hv Hz Hn. unfold init_c. cbn [loa a_init a_coords]. unfold lo_init. apply wp_bind. apply w_default_individual_init; auto. intros pop l Lp Ho Hc. assert (Hs := new_store _ _ Ho Hc).
  apply wp_bind. unfold lo_sizes. apply wp_bind. apply w_lift_x. { intros e Ee. right. unfold py_round in Ee. destruct (fmul _ _ _); inversion Ee; subst; auto. }
  intros ns _. destruct (_ =? 0)%Z; [right; exact Hz|]. apply w_done. apply wp_bind. apply (w_settle_x F C p K nn); auto. { intros e [-> | ->]; right; auto. }
  intros h' rows' L' S' B'. apply w_done. apply (w_begin h' pop rows'); auto; [destruct pop; [cbn in Lp; lia|congruence]|rewrite L', map_length; auto].
Qed.
(** parameters that give every pride a female and leave a nomad *)
Record loa_fit (ns : Z) : Prop := {
  lg_prides : 0 < lo_prides p;
  lg_ns : py_round (fmul F (lo_nomad p) (fnat F (lo_n p))) = Ret ns;
  lg_some : (1 <= ns <= Z.of_nat (lo_n p))%Z;
  lg_nom : exists nf, py_round (fmul F (fsub F (flit F 1 1) (lo_female p)) (fz F ns)) = Ret nf;
  lg_size : forall s, In s (sizes_of p ns) -> (1 <= s)%Z /\ (exists nf k, py_round (fmul F (lo_female p) (fz F s)) = Ret nf /\ (1 <= nf)%Z /\ py_round (fmul F (fz F (Z.min nf s)) (lo_imm p)) = Ret k /\ (0 <= k)%Z) /\
     exists k, py_round (fmul F (fz F s) (lo_roam p)) = Ret k /\ (k <= s)%Z }.
Definition share (g : num) (s : Z) : Z * Z := match py_round (fmul F g (fz F s)) with Ret nf => (Z.min (Z.max nf 0) s, s - Z.min (Z.max nf 0) s)%Z | Raise _ => (0, 0)%Z end.
Lemma loa_init_good : forall ns, loa_fit ns -> init_c K (loa F C p pi) (fun hp fit xb fxb rows l => LoaInv hp fit xb fxb rows l /\
  LoaLay (map (share (lo_female p)) (sizes_of p ns)) (share (fsub F (flit F 1 1) (lo_female p)) ns) hp rows).
Proof.
  intros ns [G1 G2 G3 (nfn & G4) G5]. assert (Hn : 0 < lo_n p) by lia. unfold init_c. cbn [loa a_init a_coords]. unfold lo_init. apply wp_bind. apply w_default_individual_init; auto. intros pop l Lp Ho Hc. assert (Hs := new_store _ _ Ho Hc).
  apply wp_bind. unfold lo_sizes. apply wp_bind. apply w_lift_x; [intros e Ee; rewrite G2 in Ee; discriminate|]. intros ns' E. rewrite G2 in E. injection E as <-. destruct (Z.of_nat (lo_prides p) =? 0)%Z eqn:B; [apply Z.eqb_eq in B; lia|]. clear B.
  apply w_done. match goal with |- context [map ?f (seq 0 (lo_prides p))] => replace (map f (seq 0 (lo_prides p))) with (sizes_of p ns) by (apply map_ext; intros i; unfold pride_size; destruct (Z.of_nat i <? _)%Z; lia) end.
  assert (P0 : Forall (fun s => 0 <= s)%Z (sizes_of p ns ++ [ns])) by (apply Forall_app; split; [apply Forall_forall; intros s Hin; eapply sizes_pos; eauto; lia|constructor; [lia|constructor]]).
  destruct (split_sizes nat (sizes_of p ns ++ [ns]) (seq 0 (length pop)) P0) as (idss & Ec & El). { rewrite total_app, sizes_total by auto. cbn. rewrite seq_length. lia. }
  assert (Ls : length idss = S (lo_prides p)) by (rewrite <- (map_length (fun ids => Z.of_nat (length ids)) idss), El, app_length; unfold sizes_of; rewrite map_length, seq_length; cbn; lia).
  rewrite <- El, <- Ec, cut_all, map_length. apply wp_bind.
  assert (Sz : forall j, j < length idss -> Z.of_nat (length (nth j idss [])) = nth j (sizes_of p ns ++ [ns]) 0%Z) by (intros j Lj; rewrite <- El; rewrite (nth_indep _ 0%Z (Z.of_nat (length (@nil nat)))) by (rewrite map_length; auto); symmetry; apply (map_nth (fun ids => Z.of_nat (length ids)))).
  assert (Szp : forall j, j < lo_prides p -> In (nth j (sizes_of p ns ++ [ns]) 0%Z) (sizes_of p ns)) by (intros j Lj; rewrite app_nth1 by (unfold sizes_of; rewrite map_length, seq_length; auto); apply nth_In; unfold sizes_of; rewrite map_length, seq_length; auto).
  assert (Szn : nth (lo_prides p) (sizes_of p ns ++ [ns]) 0%Z = ns) by (rewrite app_nth2 by (unfold sizes_of; rewrite map_length, seq_length; auto); unfold sizes_of; rewrite map_length, seq_length, Nat.sub_diag; reflexivity).
  apply (w_settle F C p K nn); auto.
  { rewrite Ec. apply seq_NoDup. }
  { rewrite Ec. apply Forall_forall. intros i Hi. apply in_seq in Hi. rewrite map_length. lia. }
  { intros j Lj. cbn [Nat.add]. unfold females_of. rewrite Sz by auto. destruct (j <? lo_prides p) eqn:B.
    - apply Nat.ltb_lt in B. destruct (G5 _ (Szp j B)) as (_ & (nf & k & Q & _) & _). eauto.
    - apply Nat.ltb_ge in B. replace j with (lo_prides p) by lia. rewrite Szn. eauto. }
  intros h' rows L' S' B' Lr Hset _ Htag. cbn [Nat.add app] in *. apply w_done. rewrite Ec. apply (w_begin h' pop rows); auto; [destruct pop; [cbn in Lp; lia|congruence]|rewrite L', map_length; auto|].
  intros xb fxb HI _. split; [exact HI|].
  assert (Ei : idss = removelast idss ++ [last idss []]) by (apply app_removelast_last; intros Z; rewrite Z in Ls; discriminate). assert (Er : rows = removelast rows ++ [last rows row0]) by (apply app_removelast_last; intros Z; rewrite Z, Ls in Lr; discriminate).
  set (ps := removelast idss) in *. set (nom := last idss []) in *. set (rs := removelast rows) in *. set (rn := last rows row0) in *. clearbody ps nom rs rn.
  assert (Lps : length ps = lo_prides p) by (rewrite Ei, app_length in Ls; cbn in Ls; lia). assert (Lrs : length rs = lo_prides p) by (apply (f_equal (@length lrow)) in Er; rewrite Lr, app_length in Er; cbn in Er; lia).
  assert (Np : forall j, j < lo_prides p -> nth j idss [] = nth j ps [] /\ nth j rows row0 = nth j rs row0) by (intros j Lj; rewrite Ei, Er; split; apply app_nth1; lia).
  assert (Nn : nth (lo_prides p) idss [] = nom /\ nth (lo_prides p) rows row0 = rn) by (rewrite Ei, Er; split; rewrite app_nth2 by lia; rewrite ?Lps, ?Lrs, Nat.sub_diag; reflexivity).
  assert (Rp : forall j, j < lo_prides p -> exists nf, py_round (fmul F (lo_female p) (fz F (nth j (sizes_of p ns) 0%Z))) = Ret nf /\ lr_f (nth j rs row0) = Z.min (Z.max nf 0) (nth j (sizes_of p ns) 0%Z) /\ lr_n (nth j rs row0) = nth j (sizes_of p ns) 0%Z /\ (lr_f (nth j rs row0) + lr_m (nth j rs row0) = nth j (sizes_of p ns) 0)%Z).
  { intros j Lj. destruct (Hset j ltac:(lia)) as ((A1 & A2 & A3) & _ & _ & nf & A4 & A5). unfold females_of in A4. rewrite Sz in A4, A5 by lia. rewrite Sz in A1 by lia. rewrite (proj2 (Nat.ltb_lt _ _) Lj) in A4. destruct (Np j Lj) as [_ Q]. rewrite Q in *. rewrite app_nth1 in A1, A4, A5 by (unfold sizes_of; rewrite map_length, seq_length; auto).
    exists nf. split; auto. split; auto. split; auto. assert (Y := sexes h' (nth j idss [])). assert (Z := Sz j ltac:(lia)). rewrite app_nth1 in Z by (unfold sizes_of; rewrite map_length, seq_length; auto). lia. }
  assert (Ff : Forall (fit_row F p) rs).
  { apply Forall_forall. intros r Hr. destruct (In_nth _ _ row0 Hr) as (j & Lj & <-). rewrite Lrs in Lj. destruct (Rp j Lj) as (nf & Q1 & Q2 & Q3 & Q4). assert (Hin : In (nth j (sizes_of p ns) 0%Z) (sizes_of p ns)) by (apply nth_In; unfold sizes_of; rewrite map_length, seq_length; auto).
    destruct (G5 _ Hin) as (S0 & (nf' & k & R1 & R2 & R3 & R4) & k2 & R5 & R6). rewrite Q1 in R1. injection R1 as <-. rewrite Z.max_l in Q2 by lia. unfold fit_row, roam_ok, imm_of. rewrite Q4. rewrite Q2. split; [lia|]. split; [lia|]. split; [exists k2; split; auto; lia|]. exists k. auto. }
  exists ps, nom, rs, rn. cbn [fst snd]. split; auto. split; [|split; [|split; [|split; [exact Ff|]]]].
  - constructor.
    + rewrite <- Ec, Ei, concat_app. cbn. rewrite app_nil_r. reflexivity.
    + apply seq_NoDup.
    + apply Forall_forall. intros i Hi. apply in_seq in Hi. rewrite L', map_length. lia.
    + assert (Y : forall (a : list (list nat)) (b : list lrow), length a = length b -> (forall j, j < length a -> counts h' (nth j a []) (nth j b row0)) -> Forall2 (counts h') a b).
      { clear. induction a as [|x a IH]; intros [|y b] L H; try discriminate; constructor; [apply (H 0); cbn; lia|apply IH; [cbn in L; lia|intros j Lj; apply (H (S j)); cbn; lia]]. }
      apply Y; [lia|]. intros j Lj. rewrite Lps in Lj. destruct (Np j Lj) as [<- <-]. apply Hset. lia.
    + destruct Nn as [<- <-]. apply Hset. lia.
    + intros k i Hi. destruct (Nat.lt_ge_cases k (lo_prides p)) as [Lk|Lk]; [|rewrite nth_overflow in Hi by lia; destruct Hi]. rewrite (Htag k i) by (rewrite (proj1 (Np k Lk)); auto). rewrite (proj2 (Nat.ltb_lt _ _) Lk). reflexivity.
    + intros i Hi. rewrite (Htag (lo_prides p) i) by (rewrite (proj1 Nn); auto). rewrite Nat.ltb_irrefl. unfold at_. destruct (Nat.lt_ge_cases i (length (map new_lion pop))) as [Q|Q].
      * rewrite (nth_indep _ lion0 (new_lion ([], NaN))) by auto. rewrite map_nth. reflexivity.
      * exfalso. rewrite map_length in Q. assert (Z : In i (seq 0 (length pop))) by (rewrite <- Ec, Ei, concat_app; apply in_or_app; right; cbn; rewrite app_nil_r; auto). apply in_seq in Z. lia.
  - assert (Y : forall (a : list Z) (b : list lrow), length a = length b -> (forall j, j < length a -> fm (nth j b row0) = share (lo_female p) (nth j a 0%Z)) -> map fm b = map (share (lo_female p)) a).
    { clear. induction a as [|x a IH]; intros [|y b] L H; try discriminate; auto. cbn [map]. f_equal; [apply (H 0); cbn; lia|apply IH; [cbn in L; lia|intros j Lj; apply (H (S j)); cbn; lia]]. }
    apply Y; unfold sizes_of at 1; rewrite map_length, seq_length; [lia|]. intros j Lj. destruct (Rp j Lj) as (nf & Q1 & Q2 & Q3 & Q4). unfold fm, share. rewrite Q1. f_equal; lia.
  - destruct (Hset (lo_prides p) ltac:(lia)) as ((A1 & A2 & A3) & _ & _ & nf & A4 & A5). unfold females_of in A4. rewrite Sz in A1, A4, A5 by lia. rewrite Szn in A1, A4, A5. rewrite Nat.ltb_irrefl in A4. rewrite (proj2 Nn) in *. unfold fm, share. rewrite A4. assert (Y := sexes h' (nth (lo_prides p) idss [])). assert (Z := Sz (lo_prides p) ltac:(lia)). rewrite Szn in Z. f_equal; lia.
  - unfold share. rewrite G4. cbn [fst snd]. lia.
Qed.
End LoaRun.
