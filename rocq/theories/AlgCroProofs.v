(** Proofs about AlgCro.v. *)
From Coq Require Import ZArith Lia Bool List.
From Verif Require Import Num Task TaskSpec TaskProofs TaskProofs2 Prog Wp GetBest Run RunSpec RunProofs RunProofs2
  AlgoLib Fops AlgTac StepSpec StepLib Indiv IndivLib AlgBasic AlgBasic2 AlgBasic2Proofs AlgSwarm PopLib AlgMts AlgShadeProofs AlgKhProofs AlgAsoProofs AlgCro.
Import ListNotations.

(** ** Lists *)
Lemma argsort_length : forall gs, length (argsort gs) = length gs.
Proof. intros gs. unfold argsort. rewrite map_length, sort_on_length, combine_length, seq_length. lia. Qed.
Lemma argsort_lt : forall gs i, In i (argsort gs) -> i < length gs.
Proof.
  intros gs i H. unfold argsort in H. apply in_map_iff in H. destruct H as ((j & g) & <- & H). apply sort_on_In in H. apply in_combine_l in H. apply in_seq in H. cbn [fst]. lia.
Qed.
Lemma take_z_In : forall A k (xs : list A) a, In a (take_z k xs) -> In a xs.
Proof.
  intros A k xs a. unfold take_z. assert (G : forall m (ys : list A), In a (firstn m ys) -> In a ys).
  { intros m ys H. rewrite <- (firstn_skipn m ys). apply in_or_app. auto. }
  destruct (k <? 0)%Z; apply G.
Qed.
Lemma drop_all_eq : forall A is (xs : list A) d, drop_all is xs = map (fun i => nth i xs d) (filter (fun i => negb (existsb (Nat.eqb i) is)) (seq 0 (length xs))).
Proof.
  intros A is xs d. unfold drop_all. assert (G : forall ys s, (forall j, j < length ys -> nth (s + j) xs d = nth j ys d) ->
    map snd (filter (fun ia => negb (existsb (Nat.eqb (fst ia)) is)) (combine (seq s (length ys)) ys)) = map (fun i => nth i xs d) (filter (fun i => negb (existsb (Nat.eqb i) is)) (seq s (length ys)))).
  { induction ys as [|y ys IH]; intros s H; [reflexivity|]. cbn [length seq combine filter fst]. assert (H0 := H 0). cbn [length nth] in H0. rewrite Nat.add_0_r in H0.
    assert (H1 : forall j, j < length ys -> nth (S s + j) xs d = nth j ys d) by (intros j Hj; assert (H2 := H (S j)); cbn [length nth] in H2; rewrite <- H2 by lia; f_equal; lia).
    destruct (existsb (Nat.eqb s) is); cbn [negb map]; [apply IH; auto|]. rewrite IH by auto. rewrite H0 by lia. reflexivity. }
  apply (G xs 0). auto.
Qed.
Lemma drop_all_In : forall A is (xs : list A) a, In a (drop_all is xs) -> In a xs.
Proof. intros A is xs a H. rewrite (drop_all_eq _ is xs a) in H. apply in_map_iff in H. destruct H as (i & <- & H). apply filter_In in H. destruct H as [H _]. apply in_seq in H. apply nth_In. lia. Qed.
Lemma drop_all_some : forall A is (xs : list A), length is < length xs -> drop_all is xs <> [].
Proof.
  intros A is xs L H. destruct xs as [|x0 xs0]; [cbn in L; lia|]. set (xs := x0 :: xs0) in *. rewrite (drop_all_eq _ is xs x0) in H. apply map_eq_nil in H.
  assert (G : incl (seq 0 (length xs)) is).
  { intros i Hi. destruct (existsb (Nat.eqb i) is) eqn:B.
    - apply existsb_exists in B. destruct B as (j & Hj & Q). apply Nat.eqb_eq in Q. subst j. auto.
    - assert (Z : In i (filter (fun i => negb (existsb (Nat.eqb i) is)) (seq 0 (length xs)))) by (apply filter_In; rewrite B; auto). rewrite H in Z. destruct Z. }
  apply NoDup_incl_length in G; [|apply seq_NoDup]. rewrite seq_length in G. lia.
Qed.
Lemma drop_all_many : forall A is (xs : list A), length xs - length is <= length (drop_all is xs).
Proof.
  intros A is xs. destruct xs as [|x0 xs0]; [cbn; lia|]. set (xs := x0 :: xs0). rewrite (drop_all_eq _ is xs x0). clearbody xs. rewrite map_length. set (f := fun i => existsb (Nat.eqb i) is).
  change (filter _ _) with (filter (fun i => negb (f i)) (seq 0 (length xs))). assert (G1 : forall ys, length (filter f ys) + length (filter (fun i => negb (f i)) ys) = length ys).
  { induction ys as [|y ys IH]; [reflexivity|]. cbn [filter]. destruct (f y); cbn [negb length]; lia. }
  assert (G2 : length (filter f (seq 0 (length xs))) <= length is).
  { apply NoDup_incl_length; [apply NoDup_filter; apply seq_NoDup|]. intros i Hi. apply filter_In in Hi. destruct Hi as [_ Hi]. apply existsb_exists in Hi. destruct Hi as (j & Hj & Q). apply Nat.eqb_eq in Q. congruence. }
  specialize (G1 (seq 0 (length xs))). rewrite seq_length in G1. lia.
Qed.
Lemma put_length : forall A is (ys xs : list A), length (put is ys xs) = length xs.
Proof. induction is as [|i is IH]; intros [|y ys] xs; cbn [put]; auto. rewrite IH, upd_length. reflexivity. Qed.
Lemma put_Forall : forall A (P : A -> Prop) is ys xs, Forall P ys -> Forall P xs -> Forall P (put is ys xs).
Proof. induction is as [|i is IH]; intros [|y ys] xs H1 H2; cbn [put]; auto. inversion H1; subst. apply IH; auto. apply Forall_upd; auto. Qed.
Lemma Forall2_upd : forall A B (R : A -> B -> Prop) xs ys i a b, Forall2 R xs ys -> R a b -> Forall2 R (upd xs i a) (upd ys i b).
Proof. intros A B R xs ys i a b F. revert i. induction F; intros i H'; destruct i; cbn [upd]; constructor; auto. Qed.
Lemma put_Forall2 : forall A B (R : A -> B -> Prop) is xs ys as' bs, Forall2 R as' bs -> Forall2 R xs ys -> Forall2 R (put is as' xs) (put is bs ys).
Proof. induction is as [|i is IH]; intros xs ys as' bs H1 H2; cbn [put]; auto. inversion H1; subst; auto. apply IH; auto. apply Forall2_upd; auto. Qed.
(** what xs[is] = ys leaves *)
Lemma put_nth : forall A is (ys xs : list A) d, NoDup is -> length ys = length is -> (forall i, In i is -> i < length xs) ->
  (forall j, j < length is -> nth (nth j is 0) (put is ys xs) d = nth j ys d) /\ forall i, ~ In i is -> nth i (put is ys xs) d = nth i xs d.
Proof.
  assert (U1 : forall A (xs : list A) i a d, i < length xs -> nth i (upd xs i a) d = a) by (intros A xs; induction xs as [|x xs IH]; intros [|i] a d H; cbn in *; auto; try lia; apply IH; lia).
  assert (U2 : forall A (xs : list A) i j a d, i <> j -> nth j (upd xs i a) d = nth j xs d) by (intros A xs; induction xs as [|x xs IH]; intros [|i] [|j] a d H; cbn in *; auto; lia).
  intros A. induction is as [|i is IH]; intros [|y ys] xs d ND L H; try discriminate.
  - split; [intros j Hj; cbn in Hj; lia|auto].
  - cbn [put]. inversion ND as [|? ? N1 N2]; subst. cbn [length] in L. destruct (IH ys (upd xs i y) d N2) as [G1 G2]; [lia|intros q Hq; rewrite upd_length; apply H; right; auto|]. split.
    + intros [|j] Hj; cbn [nth length] in *; [rewrite G2 by auto; apply U1; apply H; left; auto|apply G1; lia].
    + intros q Hq. rewrite G2 by (intros Z; apply Hq; right; auto). apply U2. intros ->. apply Hq. left; auto.
Qed.
Lemma close_lt : forall F phi arr news i, In i (cr_close F phi arr news) -> i < length news.
Proof. intros F phi arr news i H. apply filter_In in H. destruct H as [H _]. apply in_seq in H. lia. Qed.
Lemma far_lt : forall F phi arr news i, In i (cr_far F phi arr news) -> i < length news.
Proof. intros F phi arr news i H. apply filter_In in H. destruct H as [H _]. apply in_seq in H. lia. Qed.
Lemma Forall_pick : forall (P : vec -> Prop) pop is, Forall P pop -> (forall i, In i is -> i < length pop) -> Forall P (map (fun i => nth i pop []) is).
Proof. intros P pop is H G. apply Forall_forall. intros x Hx. apply in_map_iff in Hx. destruct Hx as (i & <- & Hi). exact (proj1 (Forall_forall _ _) H _ (nth_In _ _ (G i Hi))). Qed.
Lemma Forall2_pick : forall (R : vec -> num -> Prop) xs fs is, Forall2 R xs fs -> (forall i, In i is -> i < length xs) ->
  Forall2 R (map (fun i => nth i xs []) is) (map (fun i => nth i fs NaN) is).
Proof.
  intros R xs fs is H G. assert (L := Forall2_len _ _ _ _ _ H). induction is as [|i is IH]; cbn [map]; constructor; [|apply IH; intros; apply G; right; auto].
  assert (i < length xs) by (apply G; left; auto). apply (Forall2_nth _ _ _ _ _ i _ _ H); apply nth_error_nth'; lia.
Qed.
Lemma w_choice_x : forall K n k (Q : list nat -> elog -> Prop) l, k <= n \/ K_exn K EValue ->
  (forall rs, length rs = k -> NoDup rs -> (forall r, In r rs -> r < n) -> k <= n -> Q rs l) -> wp K (choice n k) Q l.
Proof.
  intros K n k Q l [H|H] HQ; [apply w_choice; auto|]. destruct (Compare_dec.le_lt_dec k n) as [H1|H1]; [apply w_choice; auto|]. clear HQ.
  unfold choice. assert (G : forall A k (xs : list A) (Q : list A -> elog -> Prop), length xs < k -> wp K (choice_from xs k) Q l).
  { clear - H. induction k as [|k IH]; intros xs Q L; [lia|]. destruct xs as [|x0 xs0]; [exact H|]. cbn [choice_from]. remember (x0 :: xs0) as xs. apply wp_bind. apply w_integers; [subst; cbn; lia|]. intros i Hi.
    apply wp_bind. apply w_nthP; auto. intros a Ea. apply wp_bind. apply IH. rewrite remove_at_length by auto. lia. }
  apply G. rewrite seq_length. auto.
Qed.

(** ** The operators *)
Section Ops.
Variables (F : fops) (C : cfg).
Hypothesis HC : cfg_ok C.
Let d := c_dim C.
(** sexual crossover: component by component, row i of the first half takes its own or that of row 2i *)
Definition crossed (cr : num) (pop ys : list vec) : Prop :=
  length ys = length pop /\
  (forall i, i < length pop / 2 -> comps d (nth i ys []) (fun k c => exists r, in_unit r /\ c = nth k (nth (if fltb r cr then i else 2 * i) pop []) NaN)) /\
  forall i, length pop / 2 <= i -> nth i ys [] = nth i pop [].
(** brooding: a component stays or is drawn anew *)
Definition brooded (mr : num) (x z : vec) : Prop :=
  comps d z (fun k c => exists r, in_unit r /\ if fltb r mr then c = nth k x NaN else
    exists u, in_unit u /\ c = fadd F (nth k (c_lower C) NaN) (fmul F (fsub F (nth k (c_upper C) NaN) (nth k (c_lower C) NaN)) u)).
(** a larva that finds no place moves *)
Definition shifted (mr f : num) (x z : vec) : Prop :=
  comps d z (fun k c => exists r, in_unit r /\ if fltb r mr then c = nth k x NaN else exists u, in_unit u /\ c = fadd F (nth k x NaN) (fmul F f u)).
Lemma w_cross_rows : forall K cr pop (Q : list vec -> elog -> Prop) l, dims d pop -> (forall ys, crossed cr pop ys -> Q ys l) ->
  wp K (for_range (length pop / 2) (fun rows i =>
    let* x := nthP rows i in
    let* y := nthP rows (i * 2) in
    let* z := mapM (fun k => let* r := random in if fltb r cr then nthP x k else nthP y k) (seq 0 (c_dim C)) in
    setP rows i z) pop) Q l.
Proof.
  clear HC. intros K cr pop Q l Dp HQ. set (h := length pop / 2). assert (Hh : 2 * h <= length pop) by (apply Nat.mul_div_le; lia).
  eapply wp_conseq0; [apply (wp_for_range _ _ _ _ (fun m rows l' => l' = l /\ dims d rows /\ length rows = length pop /\
    (forall i, i < m -> comps d (nth i rows []) (fun k c => exists r, in_unit r /\ c = nth k (nth (if fltb r cr then i else 2 * i) pop []) NaN)) /\
    forall i, m <= i -> nth i rows [] = nth i pop []))|].
  - split; auto. split; auto. split; auto. split; auto. intros i Hi. lia.
  - intros i rows l' Hi (-> & D & L & H1 & H2). apply wp_bind. apply w_nthP; [lia|]. intros x Ex. apply wp_bind. apply w_nthP; [lia|]. intros y Ey.
    assert (Lx : length x = d) by (apply (Forall_nth _ _ _ _ _ D Ex)). assert (Ly : length y = d) by (apply (Forall_nth _ _ _ _ _ D Ey)).
    apply (nth_error_nth _ _ []) in Ex. apply (nth_error_nth _ _ []) in Ey.
    apply wp_bind. apply (w_mapM_seq _ _ (fun k c => exists r, in_unit r /\ c = nth k (nth (if fltb r cr then i else 2 * i) pop []) NaN) _ _ NaN).
    { intros k Q' Hk HQ'. apply wp_bind. apply w_random_u. intros r Hr. fold d in Hk. destruct (fltb r cr) eqn:B; (apply w_nthP; [lia|]); intros a Ea; apply HQ'; exists r; rewrite B; split; auto; apply (nth_error_nth _ _ NaN) in Ea; subst a.
      - rewrite <- Ex, H2 by lia. reflexivity.
      - rewrite <- Ey, H2 by lia. replace (i * 2) with (2 * i) by lia. reflexivity. }
    intros z Lz Hz. apply w_setP; [lia|]. split; auto. split; [apply Forall_upd; auto|]. split; [rewrite upd_length; auto|].
    assert (U1 : nth i (upd rows i z) [] = z) by (apply nth_error_nth; apply nth_upd_same; lia).
    assert (U2 : forall j, i <> j -> nth j (upd rows i z) [] = nth j rows []).
    { intros j Hj. assert (U := nth_upd_other _ rows i j z Hj). destruct (Compare_dec.le_lt_dec (length rows) j) as [Hl|Hl]; [rewrite !nth_overflow by (rewrite ?upd_length; auto); auto|].
      apply nth_error_nth. rewrite U. apply nth_error_nth'. auto. }
    split; intros j Hj.
    + destruct (Nat.eq_dec i j) as [<-|N]; [rewrite U1; split; auto|rewrite U2 by auto; apply H1; lia].
    + rewrite U2 by lia. apply H2. lia.
  - intros ys l' (-> & D & L & H1 & H2). apply HQ. split; auto.
Qed.
(** mixing rows inside the bounds gives rows inside the bounds *)
Lemma crossed_inside : forall cr pop ys, Forall (inside C) pop -> crossed cr pop ys -> Forall (inside C) ys.
Proof.
  intros cr pop ys H (L & H1 & H2). assert (Hh : 2 * (length pop / 2) <= length pop) by (apply Nat.mul_div_le; lia). apply Forall_forall. intros y Hy. destruct (In_nth _ _ [] Hy) as (i & Hi & <-). assert (G : forall j, j < length pop -> inside C (nth j pop [])).
  { intros j Hj. exact (proj1 (Forall_forall _ _) H _ (nth_In _ _ Hj)). }
  destruct (Compare_dec.le_lt_dec (length pop / 2) i) as [Q|Q]; [rewrite H2 by auto; apply G; lia|]. destruct (H1 i Q) as [Z1 Z2]. apply inside_rows; auto. split; auto. intros k Hk.
  destruct (Z2 k Hk) as (r & _ & E). fold d. rewrite E. assert (Gi : inside C (nth (if fltb r cr then i else 2 * i) pop [])) by (apply G; destruct (fltb r cr); lia).
  apply inside_rows in Gi; auto. apply Gi. auto.
Qed.
Lemma w_brood_raw : forall K mr x (Q : vec -> elog -> Prop) l, length x = d -> (forall z, brooded mr x z -> Q z l) ->
  wp K (mapM (fun k =>
    let* r := random in
    if fltb r mr then nthP x k
    else let* u := random in
         Done (fadd F (nth k (c_lower C) NaN) (fmul F (fsub F (nth k (c_upper C) NaN) (nth k (c_lower C) NaN)) u))) (seq 0 (c_dim C))) Q l.
Proof.
  clear HC. intros K mr x Q l L HQ. apply (w_mapM_seq _ _ (fun k c => exists r, in_unit r /\ if fltb r mr then c = nth k x NaN else
    exists u, in_unit u /\ c = fadd F (nth k (c_lower C) NaN) (fmul F (fsub F (nth k (c_upper C) NaN) (nth k (c_lower C) NaN)) u)) _ _ NaN).
  - intros k Q' Hk HQ'. apply wp_bind. apply w_random_u. intros r Hr. destruct (fltb r mr) eqn:B.
    + apply w_nthP; [fold d in Hk; lia|]. intros a Ea. apply HQ'. exists r. rewrite B. split; auto. symmetry. apply nth_error_nth. auto.
    + apply wp_bind. apply w_random_u. intros u Hu. apply w_done. apply HQ'. exists r. rewrite B. split; auto. exists u. auto.
  - intros z Lz Hz. apply HQ. split; auto.
Qed.
Lemma w_shift_raw : forall K mr f x (Q : vec -> elog -> Prop) l, length x = d -> (forall z, shifted mr f x z -> Q z l) ->
  wp K (mapM (fun k =>
    let* r := random in
    let* a := nthP x k in
    if fltb r mr then Done a else let* u := random in Done (fadd F a (fmul F f u))) (seq 0 (c_dim C))) Q l.
Proof.
  clear HC. intros K mr f x Q l L HQ. apply (w_mapM_seq _ _ (fun k c => exists r, in_unit r /\ if fltb r mr then c = nth k x NaN else exists u, in_unit u /\ c = fadd F (nth k x NaN) (fmul F f u)) _ _ NaN).
  - intros k Q' Hk HQ'. apply wp_bind. apply w_random_u. intros r Hr. apply wp_bind. apply w_nthP; [fold d in Hk; lia|]. intros a Ea. apply (nth_error_nth _ _ NaN) in Ea. subst a. destruct (fltb r mr) eqn:B.
    + apply w_done. apply HQ'. exists r. rewrite B. auto.
    + apply wp_bind. apply w_random_u. intros u Hu. apply w_done. apply HQ'. exists r. rewrite B. split; auto. exists u. auto.
  - intros z Lz Hz. apply HQ. split; auto.
Qed.
End Ops.

(** ** Invariants *)
Section Cro.
Variables (F : fops) (C : cfg) (p : cro_par) (X : exn -> Prop).
Hypothesis HC : cfg_ok C.
Let d := c_dim C.
Let n := cr_n p.
Let nb := cr_count F n (cr_broadcast p).
Let na := cr_count F n (cr_asexual p).
Let nd := cr_count F n (cr_depredation p).
Lemma dims_in : forall xs, Forall (inside C) xs -> dims d xs.
Proof. intros xs H. eapply Forall_impl; [|exact H]. intros x Hx. apply inside_len; auto. Qed.
Lemma w_eval_all_x : forall (pop : list vec) (Q : list num -> elog -> Prop) l, X EValue \/ pop <> [] -> Forall (inside C) pop ->
  (forall fs l', pop <> [] -> Evals pop fs l l' -> Q fs l') -> wp (KBX C X) (eval_all pop) Q l.
Proof. intros pop Q l H Hp HQ. destruct pop as [|x0 pop0]; [destruct H as [H|H]; [right; exact H|congruence]|]. apply w_eval_all; [discriminate|auto|]. intros fs l' He. apply HQ; auto. discriminate. Qed.
Lemma w_cross : forall cr pop (Q : list vec * list num -> elog -> Prop) l, X EValue \/ pop <> [] -> Forall (inside C) pop ->
  (forall ys fs l', ys <> [] -> Forall (inside C) ys -> Evals ys fs l l' -> Q (ys, fs) l') -> wp (KBX C X) (cr_cross C cr pop) Q l.
Proof.
  intros cr pop Q l Hx Hp HQ. unfold cr_cross. apply wp_bind. apply w_cross_rows; [apply dims_in; auto|]. intros ys H. assert (Iy := crossed_inside _ HC _ _ _ Hp H).
  apply wp_bind. apply w_eval_all_x; auto.
  - destruct Hx as [Hx|Hx]; auto. right. destruct H as (L & _). intros ->. destruct pop; [congruence|discriminate].
  - intros fs l' Hy He. apply w_done. apply HQ; auto.
Qed.
Lemma w_brood : forall mr pop (Q : list vec * list num -> elog -> Prop) l, X EValue \/ pop <> [] -> Forall (inside C) pop ->
  (forall ys fs l', ys <> [] -> Forall (inside C) ys -> Evals ys fs l l' -> Q (ys, fs) l') -> wp (KBX C X) (cr_brood F C mr pop) Q l.
Proof.
  intros mr pop Q l Hx Hp HQ. unfold cr_brood. apply wp_bind. apply (w_mapM_rel _ _ _ (fun _ y => inside C y)).
  - intros x Q' Hi HQ'. unfold cr_brood_row. apply wp_bind. apply w_brood_raw; [apply inside_len; auto; exact (proj1 (Forall_forall _ _) Hp _ Hi)|]. intros z [Lz _]. apply w_repair; auto.
  - intros ys H. assert (L := Forall2_len _ _ _ _ _ H). assert (Iy : Forall (inside C) ys) by (clear - H; induction H; constructor; auto). apply wp_bind. apply w_eval_all_x; auto.
    + destruct Hx as [Hx|Hx]; auto. right. intros ->. destruct pop; [congruence|discriminate].
    + intros fs l' Hy He. apply w_done. apply HQ; auto.
Qed.
Lemma w_move : forall mr f pop (Q : list vec * list num -> elog -> Prop) l, pop <> [] -> Forall (inside C) pop ->
  (forall ys fs l', ys <> [] -> length ys = length pop -> Forall (inside C) ys -> Evals ys fs l l' -> Q (ys, fs) l') -> wp (KBX C X) (cr_move F C mr f pop) Q l.
Proof.
  intros mr f pop Q l Hx Hp HQ. unfold cr_move. apply wp_bind. apply (w_mapM_rel _ _ _ (fun _ y => inside C y)).
  - intros x Q' Hi HQ'. unfold cr_move_row. apply wp_bind. apply w_shift_raw; [apply inside_len; auto; exact (proj1 (Forall_forall _ _) Hp _ Hi)|]. intros z [Lz _]. apply w_repair; auto.
  - intros ys H. assert (L := Forall2_len _ _ _ _ _ H). assert (Iy : Forall (inside C) ys) by (clear - H; induction H; constructor; auto). apply wp_bind. apply w_eval_all_x; auto.
    + right. intros ->. destruct pop; [congruence|discriminate].
    + intros fs l' Hy He. apply w_done. apply HQ; auto.
Qed.
(** larvae, or a reef: rows inside the bounds with their values, and the best so far *)
Record LInv (s : larvae) (l : elog) : Prop := {
  li_in : Forall (inside C) (fst (fst (fst s)));
  li_seen : Forall2 (Seen l) (fst (fst (fst s))) (snd (fst (fst s)));
  li_xb : length (snd (fst s)) = d;
  li_good : Good l (snd (fst s)) (snd s) }.
Lemma w_update : forall arr s l, LInv s l ->
  wp (KBX C X) (cr_update F C p arr s) (fun s' l' => LInv s' l' /\ ext l l' /\ length (fst (fst (fst s'))) = length (fst (fst (fst s)))) l.
Proof.
  intros arr [[[news nf] xb] fxb] l [I1 I2 I3 I4]. cbn [fst snd] in *. unfold cr_update. set (ind := cr_close F (cr_phi p) arr news).
  assert (Lt : forall i, In i ind -> i < length news) by (intros i Hi; exact (close_lt _ _ _ _ _ Hi)).
  destruct (existsb (fun i => negb (i =? 0)) ind) eqn:B; [|apply w_done; split; [split; auto|split; auto]].
  assert (Hne : map (fun i => nth i news []) ind <> []) by (intros Z; apply map_eq_nil in Z; rewrite Z in B; discriminate).
  apply wp_bind. apply w_move; auto; [apply Forall_pick; auto|]. intros ys fs l' Hy Ly Iy He. apply wp_bind. eapply w_get_best_evals; eauto. intros x f G Hx. apply w_done. cbn [fst snd].
  assert (E := Evals_ext _ _ _ _ He). split; [split; cbn [fst snd]|split; [auto|apply put_length]].
  - apply put_Forall; auto.
  - apply put_Forall2; [eapply Evals_seen; eauto|eapply Seen2_ext; eauto].
  - destruct Hx as [Hx| ->]; auto. apply inside_len; auto. exact (proj1 (Forall_forall _ _) Iy _ Hx).
  - exact G.
Qed.
(** a reef after settling: the old rows, then larvae far from one of them *)
Definition settled (reef : list vec) (fit : list num) (l : elog) (s' : larvae) (l' : elog) : Prop :=
  ext l l' /\ exists ex ef, fst (fst (fst s')) = reef ++ ex /\ snd (fst (fst s')) = fit ++ ef /\ Forall2 (Seen l') ex ef /\
    Forall (fun x => exists y, In y reef /\ fleb (cr_phi p) (euclidean F y x) = true) ex.
Lemma w_settle : forall reef fit s l, Forall (inside C) reef -> Forall2 (Seen l) reef fit -> LInv s l ->
  wp (KBX C X) (cr_settle F C p reef fit s) (fun s' l' => LInv s' l' /\ settled reef fit l s' l') l.
Proof.
  intros reef fit s l Ir Sr Hs. unfold cr_settle. apply wp_bind.
  eapply wp_conseq0; [apply (wp_for_range _ _ _ _ (fun _ s' l' => LInv s' l' /\ ext l l'))|].
  - split; auto.
  - intros i s' l' _ [H1 H2]. unfold cr_round. apply wp_bind. eapply wp_conseq0; [apply w_update; exact H1|]. intros s1 l1 (G1 & G2 & _).
    eapply wp_conseq0; [apply w_update; exact G1|]. intros s2 l2 (K1 & K2 & _). split; auto. eapply ext_trans; [exact H2|]. eapply ext_trans; eauto.
  - intros [[[news nf] xb] fxb] l' [[I1 I2 I3 I4] E]. cbn [fst snd] in *. apply w_done. set (ind := cr_far F (cr_phi p) reef news).
    assert (Lt : forall i, In i ind -> i < length news) by (intros i Hi; exact (far_lt _ _ _ _ _ Hi)).
    assert (Z := Forall2_pick _ _ _ _ I2 Lt). split; [split; cbn [fst snd]; auto|].
    + apply Forall_app. split; auto. apply Forall_pick; auto.
    + apply Forall2_app; auto. eapply Seen2_ext; eauto.
    + split; auto. eexists. eexists. cbn [fst snd]. split; [reflexivity|]. split; [reflexivity|]. split; auto. apply Forall_forall. intros x Hx. apply in_map_iff in Hx. destruct Hx as (i & <- & Hi).
      apply filter_In in Hi. destruct Hi as [_ Hi]. apply existsb_exists in Hi. exact Hi.
Qed.
Definition CroInv (pop : list vec) (fit : list num) (xb : vec) (fxb : num) (flat : bool) (l : elog) : Prop :=
  length xb = d /\ Good l xb fxb /\
  (flat = false -> Forall (inside C) pop /\ Forall2 (Seen l) pop fit /\ n <= length pop) /\
  (flat = true -> X EValue \/ Z.to_nat nb <= length pop).
(** a whole iteration before depredation *)
Definition grown (pop : list vec) (fit : list num) (pop' : list vec) (fit' : list num) (l' : elog) : Prop :=
  exists e1 g1 e2 g2, pop' = (pop ++ e1) ++ e2 /\ fit' = (fit ++ g1) ++ g2 /\ Forall2 (Seen l') e1 g1 /\ Forall2 (Seen l') e2 g2 /\
    Forall (fun x => exists y, In y pop /\ fleb (cr_phi p) (euclidean F y x) = true) e1 /\
    Forall (fun x => exists y, In y (pop ++ e1) /\ fleb (cr_phi p) (euclidean F y x) = true) e2.
Hypothesis HX : X EValue \/ (0 < nb /\ nb < Z.of_nat n /\ 0 < na /\ 0 <= nd /\ nb + nd <= Z.of_nat n /\ 0 < Z.of_nat d)%Z.
Lemma w_body : forall bi pop fit xb fxb l, CroInv pop fit xb fxb false l -> length bi = Z.to_nat nb -> (forall i, In i bi -> i < length pop) ->
  wp (KBX C X) (cr_body F C p bi pop fit xb fxb) (fun s' l' => LInv s' l' /\ ext l l' /\ grown pop fit (fst (fst (fst s'))) (snd (fst (fst s'))) l') l.
Proof.
  intros bi pop fit xb fxb l (Lx & G & H & _) Lb Hb. destruct (H eq_refl) as (Ip & Sp & Ln). unfold cr_body.
  assert (Xb : X EValue \/ map (fun i => nth i pop []) bi <> []).
  { destruct HX as [H0|(H0 & _)]; auto. right. intros Z. apply map_eq_nil in Z. subst bi. cbn in Lb. lia. }
  assert (Xd : X EValue \/ drop_all bi pop <> []).
  { destruct HX as [H0|(H0 & H1 & _)]; auto. right. apply drop_all_some. lia. }
  apply wp_bind. apply w_cross; auto; [apply Forall_pick; auto|]. intros b1 f1 l1 N1 I1 E1. apply wp_bind. eapply w_get_best_evals; eauto. intros x1 g1 G1 Hx1.
  assert (Lx1 : length x1 = d) by (destruct Hx1 as [Hx1| ->]; auto; apply inside_len; auto; exact (proj1 (Forall_forall _ _) I1 _ Hx1)).
  apply wp_bind. apply w_brood; auto. { apply Forall_forall. intros x Hx. apply drop_all_In in Hx. exact (proj1 (Forall_forall _ _) Ip _ Hx). }
  intros b2 f2 l2 N2 I2 E2. apply wp_bind. eapply w_get_best_evals; eauto. intros x2 g2 G2 Hx2.
  assert (Lx2 : length x2 = d) by (destruct Hx2 as [Hx2| ->]; auto; apply inside_len; auto; exact (proj1 (Forall_forall _ _) I2 _ Hx2)).
  assert (T1 := Evals_ext _ _ _ _ E1). assert (T2 := Evals_ext _ _ _ _ E2). assert (T12 : ext l l2) by (eapply ext_trans; eauto).
  apply wp_bind. eapply wp_conseq0; [apply w_settle; auto|].
  { eapply Seen2_ext; eauto. }
  { split; cbn [fst snd]; auto; [apply Forall_app; auto|]. apply Forall2_app; [eapply Seen2_ext; [exact T2|]|]; eapply Evals_seen; eauto. }
  intros [[[reef fr] x3] g3] l3 [[J1 J2 J3 J4] (T3 & e1 & h1 & Q1 & Q2 & Q3 & Q4)]. cbn [fst snd] in *. unfold cr_asex. set (idx := take_z _ _).
  assert (Lf := Forall2_len _ _ _ _ _ J2). assert (Hi : forall i, In i idx -> i < length reef) by (intros i Hi; apply take_z_In in Hi; apply argsort_lt in Hi; lia).
  assert (Xa : X EValue \/ map (fun i => nth i reef []) idx <> []).
  { destruct HX as [H0|(H0 & H1 & H2 & _)]; auto. right. intros Z. apply map_eq_nil in Z. apply (f_equal (@length nat)) in Z. unfold idx, take_z in Z. fold n na in Z.
    destruct (na <? 0)%Z eqn:B; [apply Z.ltb_lt in B; lia|]. rewrite firstn_length, argsort_length in Z. cbn [length] in Z. rewrite <- Lf, Q1, app_length in Z. lia. }
  apply wp_bind. apply w_brood; auto; [apply Forall_pick; auto|]. intros b4 f4 l4 N4 I4 E4. apply wp_bind. eapply w_get_best_evals; eauto. intros x4 g4 G4 Hx4.
  assert (Lx4 : length x4 = d) by (destruct Hx4 as [Hx4| ->]; auto; apply inside_len; auto; exact (proj1 (Forall_forall _ _) I4 _ Hx4)).
  assert (T4 := Evals_ext _ _ _ _ E4). eapply wp_conseq0; [apply w_settle; auto|].
  { eapply Seen2_ext; eauto. }
  { split; cbn [fst snd]; auto. eapply Evals_seen; eauto. }
  intros [[[reef' fr'] x5] g5] l5 [J5 (T5 & e2 & h2 & R1 & R2 & R3 & R4)]. cbn [fst snd] in *. split; auto. split; [eapply ext_trans; [|exact T5]; eapply ext_trans; [|exact T4]; eapply ext_trans; eauto|].
  exists e1, h1, e2, h2. subst reef fr. split; auto. split; auto. split; [eapply Seen2_ext; [exact T5|]; eapply Seen2_ext; [exact T4|]; auto|]. auto.
Qed.
Hypothesis XI : X EIndex.
Hypothesis XZ : X EZeroDiv \/ cr_k p <> 0%Z.
(** what an iteration leaves: without depredation the reef has only grown *)
Definition kept (pop : list vec) (fit : list num) (flat : bool) (a : list vec * list num * vec * num * bool) (l' : elog) : Prop :=
  let '(pop', fit', xb', fxb', flat') := a in CroInv pop' fit' xb' fxb' flat' l' /\ flat = false /\ (flat' = false -> grown pop fit pop' fit' l').
Lemma cro_iter_c : forall pop fit xb fxb flat l, CroInv pop fit xb fxb flat l -> wp (KBX C X) (cr_iter F C p pop fit xb fxb flat) (kept pop fit flat) l.
Proof.
  intros pop fit xb fxb flat l H. unfold cr_iter. fold n nb. apply wp_bind.
  assert (G : wp (KBX C X) (if (nb <? 0)%Z then Fail EValue else choice (length pop) (Z.to_nat nb)) (fun bi l' => l' = l /\ length bi = Z.to_nat nb /\ forall i, In i bi -> i < length pop) l).
  { destruct (nb <? 0)%Z eqn:B; [destruct HX as [H0|(H0 & _)]; [right; exact H0|apply Z.ltb_lt in B; lia]|]. apply w_choice_x; auto.
    destruct HX as [H0|(H0 & H1 & _)]; [right; right; exact H0|]. destruct H as (_ & _ & Hf & Ht). destruct flat; [destruct (Ht eq_refl) as [Z|Z]; [right; right; exact Z|left; exact Z]|left]. destruct (Hf eq_refl) as (_ & _ & Ln). lia. }
  eapply wp_conseq0; [exact G|]. clear G. intros bi l' (-> & Lb & Hb). destruct flat; [right; exact XI|]. apply wp_bind. eapply wp_conseq0; [apply w_body; eauto|].
  intros [[[pop' fit'] xb'] fxb'] l' ([J1 J2 J3 J4] & E & Gr). cbn [fst snd] in *. apply wp_bind. apply w_view. intros v.
  assert (Ln : n <= length pop'). { destruct H as (_ & _ & Hf & _). destruct (Hf eq_refl) as (_ & _ & Ln). destruct Gr as (e1 & g1 & e2 & g2 & -> & _). rewrite !app_length. lia. }
  destruct (Z.eqb (cr_k p) 0) eqn:Bk; [right; destruct XZ as [Z|Z]; [exact Z|apply Z.eqb_eq in Bk; congruence]|].
  destruct ((Z.of_nat (v_iters v) + 1) mod cr_k p =? 0)%Z.
  - destruct (cr_depredate F p pop' fit') as [pop2 fit2] eqn:D. cbn [wp]. cbv beta iota delta [kept]. split; [|split; [auto|discriminate]]. split; auto. split; auto. split; [discriminate|]. intros _.
    destruct HX as [H0|(H0 & H1 & H2 & H3 & H4 & Hd)]; [left; exact H0|right]. injection D as <- _. rewrite map_length.
    assert (Q1 := drop_all_many _ (take_z (cr_count F (cr_n p) (cr_depredation p)) (rev (argsort fit'))) (concat pop')). fold n nd in Q1.
    assert (Q2 : length (take_z nd (rev (argsort fit'))) <= Z.to_nat nd). { unfold take_z. destruct (nd <? 0)%Z eqn:B; [apply Z.ltb_lt in B; lia|]. rewrite firstn_length. lia. }
    assert (Q3 : length pop' <= length (concat pop')).
    { apply dims_in in J1. assert (H5 : 0 < d) by lia. clear - J1 H5. induction J1; cbn [concat length]; auto. rewrite app_length. lia. }
    fold n nd. lia.
  - cbn [wp]. cbv beta iota delta [kept]. split; [|split; auto]. split; auto. split; auto. split; [auto|discriminate].
Qed.
Lemma cro_init_c : 0 < n -> init_c (KBX C X) (cro F C p) CroInv.
Proof.
  intros Hn. unfold init_c. cbn [a_init a_coords cro]. unfold cr_init. apply wp_bind. apply w_default_numpy_init; auto. intros pop fit l Lp Ip He. apply w_done.
  assert (Hne : pop <> []) by (destruct pop; cbn [length] in *; [unfold n in Hn; lia|congruence]). apply w_get_best0; auto. intros x f G Hx. cbn [fst snd].
  split; [apply inside_len; auto; exact (proj1 (Forall_forall _ _) Ip _ Hx)|]. split; auto. split; [|discriminate]. intros _. split; auto. split; [eapply Evals_seen; eauto|fold n in Lp; lia].
Qed.
End Cro.
