(** Tactics and lemmas for proofs about population algorithms. *)
From Coq Require Import ZArith Lia Bool List.
From Verif Require Import Num Task TaskSpec TaskProofs TaskProofs2 Prog Wp GetBest Run RunSpec RunProofs RunProofs2 AlgoLib Fops.
Import ListNotations.

(** all rows have length d *)
Definition dims (d : nat) (xs : list vec) : Prop := Forall (fun x => length x = d) xs.

Lemma dims_nth : forall d xs i x, dims d xs -> nth_error xs i = Some x -> length x = d.
Proof. intros d xs i x H E. exact (Forall_nth _ _ _ _ _ H E). Qed.
Lemma dims_upd : forall d xs i x, dims d xs -> length x = d -> dims d (upd xs i x).
Proof. intros. apply Forall_upd; auto. Qed.
Lemma dims_inside : forall C xs, cfg_ok C -> Forall (inside C) xs -> dims (c_dim C) xs.
Proof. intros C xs HC H. eapply Forall_impl; [|exact H]. intros x Hx. apply inside_len; auto. Qed.
Lemma dims_repeat : forall d n x, length x = d -> dims d (repeat x n).
Proof. intros d n x H. apply Forall_forall. intros y Hy. apply repeat_spec in Hy. subst; auto. Qed.
Lemma dims_app : forall d xs ys, dims d xs -> dims d ys -> dims d (xs ++ ys).
Proof. intros. apply Forall_app; auto. Qed.
Lemma dims_cons : forall d x xs, length x = d -> dims d xs -> dims d (x :: xs).
Proof. intros. constructor; auto. Qed.
Lemma dims_In : forall d xs x, dims d xs -> In x xs -> length x = d.
Proof. intros d xs x H Hi. red in H. rewrite Forall_forall in H. auto. Qed.
Lemma cfg_lower_len : forall C, cfg_ok C -> length (c_lower C) = c_dim C.
Proof. intros C H. apply H. Qed.
Lemma cfg_upper_len : forall C, cfg_ok C -> length (c_upper C) = c_dim C.
Proof. intros C H. apply H. Qed.

Ltac dnth :=
  match goal with
  | H : nth_error ?xs _ = Some ?x |- length ?x = _ => apply (dims_nth _ xs _ _); [ assumption | exact H ]
  | H : nth_error ?xs ?i = Some ?x |- length ?x = _ => eapply (dims_nth _ xs i x); [ eassumption | exact H ]
  | H : In ?x ?xs |- length ?x = _ => eapply (dims_In _ xs x); [ eassumption | exact H ]
  end.
(** length goals *)
Ltac dl :=
  unfold vadd, vsub, vmul, vdiv, vscale, vscaler, vshift;
  rewrite ?upd_length, ?map_length, ?app_length, ?seq_length, ?repeat_length;
  repeat first
    [ assumption | reflexivity
    | apply map2_length | apply map3_length | apply map_length_n | apply repeat_length
    | apply cfg_lower_len; assumption | apply cfg_upper_len; assumption
    | apply inside_len; assumption
    | dnth ];
  try lia.

(** one step through a program *)
Ltac w1 :=
  lazymatch goal with
  | |- wp _ (bind _ _) _ _ => apply wp_bind
  | |- wp _ (Done _) _ _ => apply w_done
  | |- wp _ random _ _ => apply w_random; intros ? ? ?
  | |- wp _ rnd_f _ _ => apply w_rnd_f; intros ?
  | |- wp _ (uniform _ _) _ _ => apply w_uniform; intros ? ?
  | |- wp _ (integers _) _ _ => apply w_integers; [ solve [dl] | intros ? ? ]
  | |- wp _ view _ _ => apply w_view; intros ?
  | |- wp _ (nthP _ _) _ _ => apply w_nthP; [ solve [dl] | intros ? ? ]
  | |- wp _ (setP _ _ _) _ _ => apply w_setP; [ solve [dl] | ]
  | |- wp _ (random_vec _) _ _ => apply w_random_vec; intros ? ?
  | |- wp _ (rnd_f_vec _) _ _ => apply w_rnd_f_vec; intros ? ?
  | |- wp _ (uniform_vec (c_lower _) (c_upper _)) _ _ => apply w_uniform_pt; [ assumption | intros ? ? ]
  | |- wp _ (eval _) _ _ => apply w_eval; [ first [ assumption | solve [ auto ] ] | intros ? ? ? ]
  | |- wp _ (repair _) _ _ => apply w_repair; [ solve [dl] | intros ? ? ]
  | |- wp _ (let _ := _ in _) _ _ => cbv zeta
  | |- _ => progress cbn beta iota
  end.
Ltac ws := repeat w1.

Lemma firstn_In : forall A (xs : list A) n x, In x (firstn n xs) -> In x xs.
Proof. intros A xs. induction xs; destruct n; simpl; intros x H; auto; destruct H; auto. right; eauto. Qed.
Lemma skipn_In : forall A (xs : list A) n x, In x (skipn n xs) -> In x xs.
Proof. intros A xs. induction xs; destruct n; simpl; intros x H; auto; right; eauto. Qed.
Lemma Forall_firstn : forall A (P : A -> Prop) n xs, Forall P xs -> Forall P (firstn n xs).
Proof. intros. rewrite Forall_forall in *. intros x Hx. apply firstn_In in Hx. auto. Qed.
Lemma Forall_skipn : forall A (P : A -> Prop) n xs, Forall P xs -> Forall P (skipn n xs).
Proof. intros. rewrite Forall_forall in *. intros x Hx. apply skipn_In in Hx. auto. Qed.
Lemma Forall2_firstn : forall A B (P : A -> B -> Prop) n xs ys, Forall2 P xs ys -> Forall2 P (firstn n xs) (firstn n ys).
Proof. intros A B P n xs ys H. revert n. induction H; destruct n; simpl; auto. Qed.
Lemma Forall2_skipn : forall A B (P : A -> B -> Prop) n xs ys, Forall2 P xs ys -> Forall2 P (skipn n xs) (skipn n ys).
Proof. intros A B P n xs ys H. revert n. induction H; destruct n; simpl; auto. Qed.

(** ** From a curried invariant to runs *)
Section Curried.
Variables (K : wctx) (A : algo).
Variable I : a_pop A -> list num -> vec -> num -> a_par A -> elog -> Prop.
Definition Inv_of (s : rstate A) (l : elog) : Prop := I (r_pop s) (r_fit s) (r_xb s) (r_fxb s) (r_par s) l.
Definition init_c : Prop :=
  wp K (a_init A) (fun a l => let '(pop, fit, par) := a in
    wp K (lift (get_best (a_coords A pop) fit None PInf)) (fun b l' => I pop fit (fst b) (snd b) par l') l) [].
Definition iter_c : Prop :=
  forall pop fit xb fxb par l, I pop fit xb fxb par l ->
    wp K (a_iter A pop fit xb fxb par) (fun a l' => let '(pop', fit', xb', fxb', par') := a in I pop' fit' xb' fxb' par' l') l.
Lemma algo_ok_c : init_c -> iter_c -> algo_ok K A Inv_of.
Proof.
  intros H1 H2. constructor.
  - unfold init_prog. apply wp_bind. eapply wp_conseq0; [exact H1|]. intros [[pop fit] par] l H.
    apply wp_bind. eapply wp_conseq0; [exact H|]. intros [xb fxb] l' H'. exact H'.
  - intros [pop fit xb fxb par] l H. unfold iter_prog. apply wp_bind. eapply wp_conseq0; [apply (H2 _ _ _ _ _ _ H)|].
    intros [[[[pop' fit'] xb'] fxb'] par'] l' H'. exact H'.
Qed.
End Curried.

Theorem best_run_c : forall P X E A (I : a_pop A -> list num -> vec -> num -> a_par A -> elog -> Prop),
  cfg_ok (e_cfg E) -> no_nan (e_prob E) -> repair_ok E ->
  init_c (KPX (e_cfg E) P X) A I -> iter_c (KPX (e_cfg E) P X) A I ->
  (forall pop fit xb fxb par l, I pop fit xb fxb par l -> length xb = c_dim (e_cfg E) /\ Good l xb fxb) ->
  best_run_p P X E A.
Proof.
  intros P X E A I HC Hn Hr H1 H2 HI. apply (best_run_p_intro P X E A (Inv_of A I)); auto.
  - apply algo_ok_c; auto.
  - intros s l H. eapply HI; eauto.
Qed.
Theorem sound_run_c : forall P X E A (I : a_pop A -> list num -> vec -> num -> a_par A -> elog -> Prop),
  cfg_ok (e_cfg E) -> no_nan (e_prob E) -> repair_ok E ->
  init_c (KPX (e_cfg E) P X) A I -> iter_c (KPX (e_cfg E) P X) A I ->
  (forall pop fit xb fxb par l, I pop fit xb fxb par l -> length xb = c_dim (e_cfg E) /\ Seen l xb fxb) ->
  sound_run_p P X E A.
Proof.
  intros P X E A I HC Hn Hr H1 H2 HI. apply (sound_run_p_intro P X E A (Inv_of A I)); auto.
  - apply algo_ok_c; auto.
  - intros s l H. eapply HI; eauto.
Qed.
Theorem sizes_c : forall P X (N : nat -> Prop) E A (I : a_pop A -> list num -> vec -> num -> a_par A -> elog -> Prop),
  no_nan (e_prob E) -> repair_ok E ->
  init_c (KPX (e_cfg E) P X) A I -> iter_c (KPX (e_cfg E) P X) A I ->
  (forall pop fit xb fxb par l, I pop fit xb fxb par l -> N (length fit)) ->
  sizes_ok N E A.
Proof.
  intros P X N E A I Hn Hr H1 H2 HI cb k pos r w' ev H. eapply (run_reported (KPX (e_cfg E) P X)); eauto.
  - apply env_ok_KB; auto.
  - apply algo_ok_c; eauto.
  - intros s l Hs. eapply HI; eauto.
Qed.

(** an index that may be out of range *)
Lemma w_nthP_x : forall A K (xs : list A) i (Q : A -> elog -> Prop) l, K_exn K EIndex ->
  (forall a, nth_error xs i = Some a -> Q a l) -> wp K (nthP xs i) Q l.
Proof. intros A K xs i Q l He H. unfold nthP. destruct (nth_error xs i) eqn:E; simpl; auto. Qed.

(** a vector built component by component without evaluations *)
Lemma w_mapM_len : forall A K (f : A -> prog num) xs (Q : vec -> elog -> Prop) l,
  (forall a (R : num -> elog -> Prop), In a xs -> (forall v, R v l) -> wp K (f a) R l) ->
  (forall v, length v = length xs -> Q v l) -> wp K (mapM f xs) Q l.
Proof.
  intros A K f xs Q l Hf HQ. eapply wp_conseq0.
  - apply (wp_mapM_acc _ _ _ _ (fun _ l' => l' = l)); auto. intros pre a post bs l' E _ ->. apply Hf; auto.
    rewrite E. apply in_or_app. simpl; auto.
  - intros bs l' [-> Hl]. auto.
Qed.

(** a value of random(): 0 <= r <= 1 - 2^-53 *)
Definition unit_num (r : num) : Prop := fleb f0 r = true /\ fleb r rtop = true.
Lemma w_random_vec_r : forall K n (Q : vec -> elog -> Prop) l,
  (forall v, length v = n -> Forall unit_num v -> Q v l) -> wp K (random_vec n) Q l.
Proof.
  induction n; intros Q l H; [simpl; apply H; auto|]. cbn [random_vec]. apply wp_bind. apply w_random. intros r H1 H2.
  apply wp_bind. apply IHn. intros v Hv Hf. simpl. apply H; [simpl; lia|]. constructor; auto. split; auto.
Qed.
Lemma nth_unit : forall v j, Forall unit_num v -> j < length v -> unit_num (nth j v NaN).
Proof. intros v j H Hj. rewrite Forall_forall in H. apply H. apply nth_In. auto. Qed.

(** components of computed vectors *)
Lemma nth_map2 : forall A B D (f : A -> B -> D) x y j n da db dd, length x = n -> length y = n -> j < n ->
  nth j (map2 f x y) dd = f (nth j x da) (nth j y db).
Proof.
  intros A B D f x. induction x; destruct y, j, n; simpl; intros; auto; try discriminate; try lia.
  apply (IHx y j n); lia.
Qed.
Lemma nth_mapn : forall A B (f : A -> B) x j n da db, length x = n -> j < n -> nth j (map f x) db = f (nth j x da).
Proof. intros A B f x. induction x; destruct j, n; simpl; intros; auto; try discriminate; try lia. apply (IHx j n); lia. Qed.
Lemma nth_rep : forall A (a : A) n j d, j < n -> nth j (repeat a n) d = a.
Proof. induction n; destruct j; simpl; intros; auto; try lia. apply IHn. lia. Qed.
(** rewrites nth j of a computed vector of length n to the computation on the components *)
Ltac nths n :=
  unfold vadd, vsub, vmul, vdiv, vscale, vscaler, vshift;
  repeat first
    [ rewrite (nth_map2 _ _ _ _ _ _ _ n NaN NaN NaN); [ | solve [dl] | solve [dl] | solve [dl] ]
    | rewrite (nth_mapn _ _ _ _ _ n NaN NaN); [ | solve [dl] | solve [dl] ]
    | rewrite (nth_rep _ _ n _ NaN); [ | solve [dl] ] ].
