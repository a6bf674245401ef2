(** Final theorems about array helpers, Problem, CallbackList, Runner, factories and the argument
    parser (C18, C19, C31-C34, C60). *)
From Coq Require Import ZArith Lia Bool String Ascii List Permutation.
From Verif Require Import Num Task TaskSpec TaskProofs Prog Wp Run RunSpec RunProofs RunProofs2 AlgoLib Fops AlgDE
  PropertiesDE Repair Infra.
Import ListNotations.
Local Open Scope list_scope.
Local Arguments Nat.modulo : simpl never.
Local Arguments Nat.div : simpl never.

(** ** C18 full_array *)
Lemma tile_length : forall A (l : list A) k, length (tile l k) = k * length l.
Proof. induction k; simpl; auto. rewrite app_length, IHk. lia. Qed.
Lemma tile_nth : forall A (l : list A) k i, i < k * length l -> nth_error (tile l k) i = nth_error l (i mod length l).
Proof.
  induction k; intros i Hi; simpl in *; [lia|].
  destruct (Nat.lt_ge_cases i (length l)) as [H|H].
  - rewrite nth_error_app1, Nat.mod_small; auto.
  - rewrite nth_error_app2, IHk by lia. f_equal.
    replace i with ((i - length l) + 1 * length l) at 2 by lia. rewrite Nat.mod_add; auto. lia.
Qed.
Lemma nth_error_firstn_lt : forall A n (l : list A) i, i < n -> nth_error (firstn n l) i = nth_error l i.
Proof.
  induction n; intros l i H; [lia|]. destruct l; simpl; auto. destruct i; simpl; auto. apply IHn. lia.
Qed.
Theorem C18_scalar : forall v n, exists r, full_array (PScalar v) n = Ret r /\ length r = n /\
  forall i, i < n -> nth_error r i = Some v.
Proof.
  intros v n. exists (repeat v n). split; auto. split; [apply repeat_length|].
  intros i H. revert i H. induction n; simpl; intros i H; [lia|]. destruct i; simpl; auto. apply IHn. lia.
Qed.
Theorem C18_seq : forall l n, l <> [] -> exists r, full_array (PSeq l) n = Ret r /\ length r = n /\
  forall i, i < n -> nth_error r i = nth_error l (i mod length l).
Proof.
  intros l n Hl. unfold full_array. assert (0 < length l) by (destruct l; simpl; [congruence|lia]).
  destruct (length l =? n) eqn:E1.
  - apply Nat.eqb_eq in E1. exists l. split; auto. split; auto. intros i Hi. rewrite Nat.mod_small; auto. lia.
  - apply Nat.eqb_neq in E1. destruct (n <? length l) eqn:E2.
    + apply Nat.ltb_lt in E2. exists (firstn n l). split; auto. split; [apply firstn_length_le; lia|].
      intros i Hi. rewrite nth_error_firstn_lt, Nat.mod_small; auto. lia.
    + apply Nat.ltb_ge in E2. destruct l as [|a l']; [congruence|]. set (l := a :: l') in *.
      assert (Hc : n <= ceil_div n (length l) * length l).
      { unfold ceil_div. pose proof (Nat.div_mod (n + length l - 1) (length l) ltac:(lia)).
        pose proof (Nat.mod_upper_bound (n + length l - 1) (length l) ltac:(lia)). lia. }
      eexists. split; [reflexivity|]. split.
      * apply firstn_length_le. rewrite tile_length. auto.
      * intros i Hi. rewrite nth_error_firstn_lt by auto. apply tile_nth. lia.
Qed.
(** it raises exactly for the empty sequence (n > 0) and for unsupported types *)
Theorem C18_raises : forall a n e, full_array a n = Raise e <->
  (a = PSeq [] /\ 0 < n /\ e = EZeroDiv) \/ (a = POther /\ e = EType).
Proof.
  intros [v|l|] n e.
  - split; [discriminate|]. intros [(H & _)|(H & _)]; discriminate.
  - destruct l as [|a l].
    + simpl. destruct n; simpl; (split; [intros H; inversion H; subst; left; split; auto; split; auto; lia|]).
      * intros [(_ & H & _)|(H & _)]; [lia|discriminate].
      * intros [(_ & _ & ->)|(H & _)]; [auto|discriminate].
    + destruct (C18_seq (a :: l) n) as (r & E & _); [congruence|]. rewrite E.
      split; [discriminate|]. intros [(H & _)|(H & _)]; discriminate.
  - split; [intros H; inversion H; auto|]. intros [(H & _)|(_ & ->)]; [discriminate|auto].
Qed.
(** objects_to_array copies *)
Theorem C18_objects : forall A (d : A) objs, objects_to_array d objs = objs.
Proof.
  intros A d objs. unfold objects_to_array.
  assert (G : forall done rest, fold_left (fun a ie => upd a (fst ie) (snd ie)) (combine (seq (length done) (length rest)) rest)
      (done ++ repeat d (length rest)) = done ++ rest).
  { intros done rest. revert done. induction rest as [|x rest IH]; intros done; simpl; auto.
    replace (upd (done ++ d :: repeat d (length rest)) (length done) x) with ((done ++ [x]) ++ repeat d (length rest)).
    - specialize (IH (done ++ [x])). rewrite app_length in IH. simpl in IH. rewrite Nat.add_1_r in IH. rewrite IH.
      rewrite <- app_assoc. auto.
    - rewrite <- app_assoc. simpl. clear. induction done; simpl; auto. rewrite IHdone. auto. }
  apply (G [] objs).
Qed.

(** ** C19 Problem *)
Theorem C19_bounds : forall dim lo hi p, problem_init dim lo hi = Ret p ->
  p_dim p = dim /\ length (p_lower p) = dim /\ length (p_upper p) = dim.
Proof.
  assert (G : forall a n r, full_array a n = Ret r -> length r = n).
  { intros [v|[|a l]|] n r H.
    - destruct (C18_scalar v n) as (r' & E & L & _). congruence.
    - simpl in H. destruct n; simpl in H; inversion H; auto.
    - destruct (C18_seq (a :: l) n) as (r' & E & L & _); congruence.
    - discriminate. }
  intros dim lo hi p H. unfold problem_init in H.
  destruct (full_array lo dim) eqn:E1; [|discriminate]. destruct (full_array hi dim) eqn:E2; [|discriminate].
  inversion H; subst; simpl. eauto.
Qed.
(** a value error exactly on a dimension mismatch, and then the objective is not computed *)
Theorem C19_evaluate : forall p obj x,
  (length x = p_dim p -> problem_evaluate p obj x = (obj x, true)) /\
  (length x <> p_dim p -> problem_evaluate p obj x = (Raise EValue, false)).
Proof.
  intros p obj x. unfold problem_evaluate. split; intros H.
  - apply Nat.eqb_eq in H. rewrite H. auto.
  - apply Nat.eqb_neq in H. rewrite H. auto.
Qed.

(** ** C31 CallbackList *)
(** the ordinary callbacks in a (possibly nested) list, in order *)
Fixpoint leaves (c : cbobj) : list nat :=
  match c with CbLeaf i => [i] | CbList cs => flat_map leaves cs end.

(** the members of the list are called in order, each exactly once, until one raises *)
Definition calls_in_order (react : reaction) (h : hook) (ids : list nat) (log : list (nat * hook))
  (r : option exn) (log' : list (nat * hook)) : Prop :=
  exists called rest, ids = called ++ rest /\ log' = log ++ map (fun i => (i, h)) called /\
    (* nobody but the last one called raised *)
    (forall pre i post, called = pre ++ i :: post -> post <> [] ->
       react i (log ++ map (fun i => (i, h)) pre) h = None) /\
    match r with
    | None => rest = [] /\ forall pre i, called = pre ++ [i] -> react i (log ++ map (fun i => (i, h)) pre) h = None
    | Some e => exists pre i, called = pre ++ [i] /\ react i (log ++ map (fun i => (i, h)) pre) h = Some e
    end.

Fixpoint cb_ind2 (P : cbobj -> Prop) (Hl : forall i, P (CbLeaf i)) (Hc : forall cs, Forall P cs -> P (CbList cs)) (c : cbobj) : P c :=
  match c with
  | CbLeaf i => Hl i
  | CbList cs => Hc cs ((fix go cs : Forall P cs :=
      match cs with [] => Forall_nil P | c :: cs' => Forall_cons c (cb_ind2 P Hl Hc c) (go cs') end) cs)
  end.

Lemma calls_app : forall react h ids1 ids2 log log1 r2 log2,
  calls_in_order react h ids1 log None log1 -> calls_in_order react h ids2 log1 r2 log2 ->
  calls_in_order react h (ids1 ++ ids2) log r2 log2.
Proof.
  intros react h ids1 ids2 log log1 r2 log2 (c1 & rest1 & E1 & L1 & N1 & -> & N1') (c2 & rest2 & E2 & L2 & N2 & R2).
  rewrite app_nil_r in E1. subst ids1 ids2. subst log1.
  assert (A1 : forall pre i post, c1 = pre ++ i :: post -> react i (log ++ map (fun i => (i, h)) pre) h = None).
  { intros pre i [|j post] E; [apply N1'|eapply N1]; eauto. congruence. }
  exists (c1 ++ c2), rest2. split; [apply app_assoc|]. split; [rewrite L2, map_app, app_assoc; auto|].
  assert (Split : forall pre i post, c1 ++ c2 = pre ++ i :: post ->
     (exists post1, c1 = pre ++ i :: post1) \/ (exists pre2, pre = c1 ++ pre2 /\ c2 = pre2 ++ i :: post)).
  { clear. induction c1 as [|a c1 IH]; intros pre i post E; simpl in *; [right; eauto|].
    destruct pre as [|b pre]; simpl in E; inversion E; subst; [left; simpl; eauto|].
    destruct (IH _ _ _ H1) as [(p1 & Q)|(p2 & Q1 & Q2)]; [left; exists p1; rewrite Q; auto|right; exists p2; rewrite Q1; auto]. }
  split.
  - intros pre i post E Hp. destruct (Split _ _ _ E) as [(p1 & E1)|(p2 & -> & E2)]; [eapply A1; eauto|].
    rewrite map_app, app_assoc. eapply N2; eauto.
  - destruct r2 as [e|].
    + destruct R2 as (pre & i & -> & Hr). exists (c1 ++ pre), i. split; [apply app_assoc|].
      rewrite map_app, app_assoc. auto.
    + destruct R2 as (-> & R2). split; auto. intros pre i E.
      destruct (Split pre i [] E) as [(p1 & E1)|(p2 & -> & E2)]; [eapply A1; eauto|].
      rewrite map_app, app_assoc. auto.
Qed.
Lemma calls_stop : forall react h ids1 ids2 log log1 e,
  calls_in_order react h ids1 log (Some e) log1 -> calls_in_order react h (ids1 ++ ids2) log (Some e) log1.
Proof.
  intros react h ids1 ids2 log log1 e (c1 & rest1 & E1 & L1 & N1 & R). exists c1, (rest1 ++ ids2).
  split; [rewrite E1, app_assoc; auto|]. auto.
Qed.
Theorem C31_hook : forall react h c log r log', call_hook react h c log = (r, log') ->
  calls_in_order react h (leaves c) log r log'.
Proof.
  intros react h c. induction c as [i|cs IH] using cb_ind2; intros log r log' H; simpl in *.
  - inversion H; subst. exists [i], []. simpl. split; auto. split; auto. split.
    + intros [|a pre] j post E Hp; simpl in E; inversion E; subst; [congruence|]. destruct pre; discriminate.
    + destruct (react i log h) as [e|] eqn:Er.
      * exists [], i. simpl. rewrite app_nil_r. auto.
      * split; auto. intros [|a pre] j E; simpl in E; inversion E; subst; simpl; [rewrite app_nil_r; auto|].
        destruct pre; discriminate.
  - revert log r log' H. induction IH as [|c cs Hc _ IHcs]; intros log r log' H.
    + inversion H; subst. exists [], []. simpl. rewrite app_nil_r. repeat split; auto.
      * intros pre i post E. destruct pre; discriminate.
      * intros pre i E. destruct pre; discriminate.
    + destruct (call_hook react h c log) as [[e|] log1] eqn:E1.
      * inversion H; subst. apply calls_stop. apply Hc; auto.
      * simpl. eapply calls_app; [apply Hc; eauto|]. apply IHcs; auto.
Qed.
(** when no callback raises: exactly one call each, in order *)
Corollary C31_all_called : forall react h c log r log', (forall i l, react i l h = None) ->
  call_hook react h c log = (r, log') -> r = None /\ log' = log ++ map (fun i => (i, h)) (leaves c).
Proof.
  intros react h c log r log' Hn H. apply C31_hook in H. destruct H as (called & rest & E & L & _ & R).
  destruct r as [e|].
  - destruct R as (pre & i & _ & Q). rewrite Hn in Q. discriminate.
  - destruct R as [-> _]. rewrite app_nil_r in E. subst. auto.
Qed.

(** the appends of a client history that give a callback *)
Definition appended (os : list cl_op) : list cbobj :=
  flat_map (fun o => match o with OpAppend (Some c) => [c] | _ => [] end) os.
(** in any client history the members are the initial ones followed by the appended ones in order;
    an append raises ValueError exactly when the object is not a Callback *)
Theorem C31_history : forall react os cs log rs cs' log', cl_steps react (cs, log) os = (rs, (cs', log')) ->
  cs' = cs ++ appended os /\ length rs = length os /\
  (forall k c r, nth_error os k = Some (OpAppend c) -> nth_error rs k = Some r ->
     r = match c with Some _ => None | None => Some EValue end).
Proof.
  induction os as [|o os IH]; intros cs log rs cs' log' H; cbn [cl_steps] in H.
  - inversion H; subst. simpl. rewrite app_nil_r. repeat split; auto. intros [|k] c r Q; discriminate.
  - destruct (cl_step react (cs, log) o) as [r0 [cs1 log1]] eqn:E1.
    destruct (cl_steps react (cs1, log1) os) as [rs1 [cs2 log2]] eqn:E2. inversion H; subst.
    destruct (IH _ _ _ _ _ E2) as (-> & L & A).
    assert (Q : cs1 = cs ++ appended [o] /\ (forall c, o = OpAppend c -> r0 = match c with Some _ => None | None => Some EValue end)).
    { unfold cl_step in E1. destruct o as [h|[c|]].
      - destruct (call_hook react h (CbList cs) log). inversion E1; subst. simpl. rewrite app_nil_r. split; auto. discriminate.
      - inversion E1; subst. simpl. split; auto. intros c0 Q. inversion Q. auto.
      - inversion E1; subst. simpl. rewrite app_nil_r. split; auto. intros c0 Q. inversion Q; auto. }
    destruct Q as [-> Q]. split; [|split].
    + simpl. rewrite app_nil_r, <- app_assoc. auto.
    + simpl. auto.
    + intros [|k] c r G1 G2; simpl in *; [|eauto]. inversion G1; inversion G2; subst. auto.
Qed.
(** a hook call in any state reaches the members present at that time *)
Theorem C31_hook_after : forall react os cs log rs cs' log' h r st', cl_steps react (cs, log) os = (rs, (cs', log')) ->
  cl_step react (cs', log') (OpHook h) = (r, st') ->
  calls_in_order react h (flat_map leaves (cs ++ appended os)) log' r (snd st').
Proof.
  intros react os cs log rs cs' log' h r st' H Hs. destruct (C31_history _ _ _ _ _ _ _ H) as (-> & _).
  unfold cl_step in Hs. destruct (call_hook react h (CbList (cs ++ appended os)) log') as [r1 l1] eqn:E.
  inversion Hs; subst. apply C31_hook in E. auto.
Qed.

(** ** C32 Runner *)
Definition results := list (string * list (string * list (vec * num))).
Definition named (an pn : string) (t : run_rec) : bool := String.eqb an (rr_alg t) && String.eqb pn (rr_prob t).
(** the values of the runs that returned, in execution order *)
Definition values (tr : list run_rec) : list (vec * num) :=
  flat_map (fun t => match rr_out t with Ret v => [v] | Raise _ => [] end) tr.
(** one independent run: it was made on a freshly constructed task with the runner's budget *)
Definition fresh_run (max_evals : Z) (g : rng_world) (fuel : nat) (als : list alg_entry) (ps : list prob_entry)
  (i : nat) (t : run_rec) : Prop :=
  exists a p ev, In a als /\ In p ps /\ rr_alg t = ae_name a /\ rr_prob t = pe_name p /\
    let E := runner_env max_evals g i p in
    run_body E (ae_algo a (e_cfg E)) (ae_cb a) fuel (World (task_init (e_cfg E)) [] (rw_pos g i))
      = (rr_out t, rr_world t, ev).
Definition order (als : list alg_entry) (ps : list prob_entry) (runs : nat) : list (string * string) :=
  flat_map (fun a => flat_map (fun p => repeat (ae_name a, pe_name p) runs) ps) als.
Definition tag (t : run_rec) : string * string := (rr_alg t, rr_prob t).

Lemma dget_dset : forall A k k' (v : A) d, dget k (dset k' v d) = if String.eqb k k' then Some v else dget k d.
Proof.
  induction d as [|[k1 v1] d IH]; simpl.
  - destruct (String.eqb k k'); auto.
  - destruct (String.eqb k' k1) eqn:E1; simpl.
    + apply String.eqb_eq in E1. subst. destruct (String.eqb k k1); auto.
    + destruct (String.eqb k k1) eqn:E2; [|auto]. apply String.eqb_eq in E2. subst.
      rewrite String.eqb_sym, E1. auto.
Qed.

Section RunnerProofs.
Variables (me : Z) (g : rng_world) (fuel : nat) (als : list alg_entry) (ps : list prob_entry).
Let FR := fresh_run me g fuel als ps.
Definition AllFresh (tr : list run_rec) : Prop := forall i t, nth_error tr i = Some t -> FR i t.
Definition NoRaise (tr : list run_rec) : Prop := Forall (fun t => exists v, rr_out t = Ret v) tr.
Definition Raised (e : exn) (tr : list run_rec) : Prop := exists tr0 t, tr = tr0 ++ [t] /\ rr_out t = Raise e /\ NoRaise tr0.

Lemma runner_one_spec : forall a p tr r tr', In a als -> In p ps -> AllFresh tr ->
  runner_one me g fuel a p tr = (r, tr') -> AllFresh tr' /\
  exists t, tr' = tr ++ [t] /\ tag t = (ae_name a, pe_name p) /\ rr_out t = r.
Proof.
  intros a p tr r tr' Ha Hp HF H. unfold runner_one in H. cbv zeta in H.
  destruct (run_body _ _ _ _ _) as [[o w'] ev] eqn:E in H. inversion H; subst. split.
  - intros i t Hi. destruct (Nat.lt_ge_cases i (length tr)) as [L|L].
    + rewrite nth_error_app1 in Hi by auto. apply HF; auto.
    + rewrite nth_error_app2 in Hi by auto. destruct (i - length tr) as [|k] eqn:Ek; [|destruct k; discriminate].
      simpl in Hi. inversion Hi; subst t. replace i with (length tr) by lia. exists a, p, ev. simpl. auto.
  - eexists. split; [reflexivity|]. auto.
Qed.
Lemma runner_runs_spec : forall k a p acc tr o rs tr', In a als -> In p ps -> AllFresh tr -> NoRaise tr ->
  runner_runs me g fuel k a p acc tr = (o, rs, tr') ->
  AllFresh tr' /\ exists new, tr' = tr ++ new /\ Forall (fun t => tag t = (ae_name a, pe_name p)) new /\
  rs = acc ++ values new /\
  match o with None => NoRaise tr' /\ length new = k | Some e => Raised e tr' end.
Proof.
  induction k as [|k IH]; intros a p acc tr o rs tr' Ha Hp HF HN H; simpl in H.
  - inversion H; subst. split; auto. exists []. simpl. rewrite !app_nil_r. auto.
  - destruct (runner_one me g fuel a p tr) as [[v|e] tr1] eqn:E1.
    + destruct (runner_one_spec _ _ _ _ _ Ha Hp HF E1) as (HF1 & t & -> & T1 & T2).
      assert (HN1 : NoRaise (tr ++ [t])) by (apply Forall_app; split; auto; constructor; eauto).
      destruct (IH _ _ _ _ _ _ _ Ha Hp HF1 HN1 H) as (HF2 & new & -> & T & -> & R). split; auto.
      exists (t :: new). rewrite <- app_assoc in *. simpl in *. split; auto. split; [constructor; auto|].
      split; [unfold values at 2; simpl; rewrite T2; simpl; rewrite <- app_assoc; auto|].
      destruct o; auto. destruct R; split; auto.
    + inversion H; subst. destruct (runner_one_spec _ _ _ _ _ Ha Hp HF E1) as (HF1 & t & -> & T1 & T2). split; auto.
      exists [t]. split; auto. split; auto. split; [unfold values; simpl; rewrite T2, app_nil_r; auto|].
      exists tr, t. auto.
Qed.
Lemma filter_same : forall an pn new, Forall (fun t => tag t = (an, pn)) new -> filter (named an pn) new = new.
Proof.
  intros an pn new H. induction H; simpl; auto. unfold tag in H. inversion H. unfold named at 1.
  rewrite !String.eqb_refl. simpl. subst. f_equal. auto.
Qed.
Lemma filter_other : forall an pn an' pn' new, Forall (fun t => tag t = (an', pn')) new -> (an, pn) <> (an', pn') ->
  filter (named an pn) new = [].
Proof.
  intros an pn an' pn' new H Hne. induction H; simpl; auto. unfold tag in H. inversion H. unfold named at 1.
  destruct (String.eqb an (rr_alg x)) eqn:E1; simpl; auto. destruct (String.eqb pn (rr_prob x)) eqn:E2; simpl; auto.
  apply String.eqb_eq in E1, E2. congruence.
Qed.
Lemma map_repeat_tag : forall c new, Forall (fun t => tag t = c) new -> map tag new = repeat c (length new).
Proof. intros c new H. induction H; simpl; auto. rewrite IHForall, H. auto. Qed.

Lemma runner_probs_spec : forall runs a qs d tr o d' tr', In a als -> incl qs ps -> AllFresh tr -> NoRaise tr ->
  NoDup (map pe_name qs) -> (forall q, In q qs -> dget (pe_name q) d = None) ->
  runner_probs me g fuel runs a qs d tr = (o, d', tr') ->
  AllFresh tr' /\ exists new, tr' = tr ++ new /\ Forall (fun t => rr_alg t = ae_name a) new /\
  match o with
  | None => NoRaise tr' /\ map tag new = flat_map (fun p => repeat (ae_name a, pe_name p) runs) qs /\
      (forall q, In q qs -> exists rs, dget (pe_name q) d' = Some rs /\ length rs = runs /\
         rs = values (filter (named (ae_name a) (pe_name q)) new)) /\
      (forall n, ~ In n (map pe_name qs) -> dget n d' = dget n d)
  | Some e => Raised e tr'
  end.
Proof.
  intros runs a qs. induction qs as [|q qs IH]; intros d tr o d' tr' Ha Hi HF HN Hnd Hd H; simpl in H.
  - inversion H; subst. split; auto. exists []. rewrite app_nil_r. repeat split; auto. intros q [].
  - inversion Hnd as [|x l Hx Hl]; subst x l.
    destruct (runner_runs me g fuel runs a q [] tr) as [[[e|] rs] tr1] eqn:E1.
    + inversion H; subst. destruct (runner_runs_spec _ _ _ _ _ _ _ _ Ha (Hi q (or_introl eq_refl)) HF HN E1) as (HF1 & new & -> & T & _ & R).
      split; auto. exists new. split; auto. split; auto.
      eapply Forall_impl; [|exact T]. intros t Ht. unfold tag in Ht. congruence.
    + destruct (runner_runs_spec _ _ _ _ _ _ _ _ Ha (Hi q (or_introl eq_refl)) HF HN E1) as (HF1 & n1 & -> & T1 & R1 & HN1 & L1).
      simpl in R1.
      destruct (IH (dset (pe_name q) rs d) (tr ++ n1) o d' tr' Ha) as (HF2 & n2 & -> & T2 & R2); auto.
      { intros x Hx2. apply Hi. right; auto. }
      { intros q' Hq'. rewrite dget_dset. destruct (String.eqb (pe_name q') (pe_name q)) eqn:Eq.
        - apply String.eqb_eq in Eq. exfalso. apply Hx. rewrite <- Eq. apply in_map; auto.
        - apply Hd. right; auto. }
      split; auto. exists (n1 ++ n2). split; [rewrite app_assoc; auto|]. split.
      { apply Forall_app. split; auto. eapply Forall_impl; [|exact T1]. intros t Ht. unfold tag in Ht. congruence. }
      destruct o as [e|]; auto. destruct R2 as (HN2 & M2 & G2 & K2). split; auto.
      split; [simpl; rewrite map_app, M2, (map_repeat_tag _ _ T1), L1; auto|]. split.
      * intros q' [<-|Hq'].
        -- exists rs. rewrite K2; auto. rewrite dget_dset, String.eqb_refl. split; auto.
           rewrite filter_app, (filter_same _ _ _ T1).
           assert (filter (named (ae_name a) (pe_name q)) n2 = []) as ->.
           { assert (Q : Forall (fun t => rr_prob t <> pe_name q) n2).
             { apply Forall_forall. intros t Ht Q. apply (in_map tag) in Ht. rewrite M2 in Ht.
               apply in_flat_map in Ht. destruct Ht as (q2 & Hq2 & Ht). apply repeat_spec in Ht. unfold tag in Ht.
               inversion Ht as [[Z1 Z2]]. apply Hx. rewrite <- Q, Z2. apply in_map; auto. }
             clear - Q. induction Q; simpl; auto. unfold named at 1. rewrite (String.eqb_sym (pe_name q)).
             apply String.eqb_neq in H. rewrite H, andb_false_r. auto. }
           rewrite app_nil_r. split; [|auto]. rewrite R1. clear - HN1 L1. apply Forall_app in HN1. destruct HN1 as [_ Q].
           subst runs. induction Q; simpl; auto. destruct H as [v Hv]. unfold values; simpl. rewrite Hv. simpl. f_equal. auto.
        -- destruct (G2 _ Hq') as (rs' & Q1 & Q2 & Q3). exists rs'. split; auto. split; auto.
           rewrite filter_app, (filter_other (ae_name a) (pe_name q') (ae_name a) (pe_name q) n1); auto.
           intros Q. inversion Q as [Q0]. apply Hx. rewrite <- Q0. apply in_map; auto.
      * intros n Hn. rewrite K2, dget_dset; [|intros Q; apply Hn; right; auto].
        destruct (String.eqb n (pe_name q)) eqn:Eq; auto. apply String.eqb_eq in Eq. subst. exfalso. apply Hn. left; auto.
Qed.
Lemma runner_algs_spec : forall runs bs res tr o res' tr', incl bs als -> AllFresh tr -> NoRaise tr ->
  NoDup (map ae_name bs) -> NoDup (map pe_name ps) ->
  runner_algs me g fuel runs bs ps res tr = (o, res', tr') ->
  AllFresh tr' /\ exists new, tr' = tr ++ new /\
  match o with
  | None => NoRaise tr' /\ map tag new = order bs ps runs /\
      (forall a, In a bs -> exists d, dget (ae_name a) res' = Some d /\
         forall q, In q ps -> exists rs, dget (pe_name q) d = Some rs /\ length rs = runs /\
         rs = values (filter (named (ae_name a) (pe_name q)) new)) /\
      (forall n, ~ In n (map ae_name bs) -> dget n res' = dget n res)
  | Some e => Raised e tr'
  end.
Proof.
  intros runs bs. induction bs as [|b bs IH]; intros res tr o res' tr' Hi HF HN Hnd Hnp H; simpl in H.
  - inversion H; subst. split; auto. exists []. rewrite app_nil_r. repeat split; auto. intros q [].
  - inversion Hnd as [|x l Hx Hl]; subst x l.
    destruct (runner_probs me g fuel runs b ps [] tr) as [[[e|] d] tr1] eqn:E1.
    + inversion H; subst.
      destruct (runner_probs_spec runs b ps [] _ _ _ _ (Hi b (or_introl eq_refl)) (incl_refl ps) HF HN Hnp (fun q _ => eq_refl) E1) as (HF1 & new & -> & T & R).
      split; auto. exists new. auto.
    + destruct (runner_probs_spec runs b ps [] _ _ _ _ (Hi b (or_introl eq_refl)) (incl_refl ps) HF HN Hnp (fun q _ => eq_refl) E1) as (HF1 & n1 & -> & T1 & HN1 & M1 & G1 & K1).
      destruct (IH (dset (ae_name b) d res) (tr ++ n1) o res' tr') as (HF2 & n2 & -> & R2); auto.
      { intros x Hx2. apply Hi. right; auto. }
      split; auto. exists (n1 ++ n2). split; [rewrite app_assoc; auto|].
      destruct o as [e|]; auto. destruct R2 as (HN2 & M2 & G2 & K2). split; auto.
      split; [rewrite map_app, M1, M2; auto|]. split.
      * intros a [<-|Ha].
        -- exists d. rewrite K2; auto. rewrite dget_dset, String.eqb_refl. split; auto.
           intros q Hq. destruct (G1 q Hq) as (rs & Q1 & Q2 & Q3). exists rs. split; auto. split; auto.
           rewrite filter_app.
           assert (filter (named (ae_name b) (pe_name q)) n2 = []) as ->.
           { assert (Q : Forall (fun t => rr_alg t <> ae_name b) n2).
             { apply Forall_forall. intros t Ht Q. apply (in_map tag) in Ht. rewrite M2 in Ht.
               apply in_flat_map in Ht. destruct Ht as (b2 & Hb2 & Ht). apply in_flat_map in Ht.
               destruct Ht as (q2 & _ & Ht). apply repeat_spec in Ht. unfold tag in Ht.
               inversion Ht as [[Z1 Z2]]. apply Hx. rewrite <- Q, Z1. apply in_map; auto. }
             clear - Q. induction Q; simpl; auto. unfold named at 1. rewrite (String.eqb_sym (ae_name b)).
             apply String.eqb_neq in H. rewrite H. auto. }
           rewrite app_nil_r. auto.
        -- destruct (G2 a Ha) as (d2 & Q1 & Q2). exists d2. split; auto. intros q Hq.
           destruct (Q2 q Hq) as (rs & S1 & S2 & S3). exists rs. split; auto. split; auto.
           rewrite filter_app.
           assert (filter (named (ae_name a) (pe_name q)) n1 = []) as ->; [|auto].
           assert (Hne : ae_name a <> ae_name b) by (intros Q; apply Hx; rewrite <- Q; apply in_map; auto).
           clear - T1 Hne. induction T1; simpl; auto. unfold named at 1.
           rewrite H. apply String.eqb_neq in Hne. rewrite Hne. auto.
      * intros n Hn. rewrite K2, dget_dset; [|intros Q; apply Hn; right; auto].
        destruct (String.eqb n (ae_name b)) eqn:Eq; auto. apply String.eqb_eq in Eq. subst. exfalso. apply Hn. left; auto.
Qed.
End RunnerProofs.

(** If the run returns: one run per algorithm, problem and repetition was made, in that nesting order,
    each on its own fresh task ([fresh_run]) and within the budget; the result for every pair is the
    list of exactly [runs] values of its runs, in execution order.
    If it raises: because a run raised (then no run was made after it), or the export type is unknown. *)
Theorem C32_runner : forall me g fuel runs als ps ok res0 r res tr,
  NoDup (map ae_name als) -> NoDup (map pe_name ps) ->
  runner_run me g fuel runs als ps ok res0 = (r, res, tr) ->
  (forall i t, nth_error tr i = Some t ->
     fresh_run me g fuel als ps i t /\ (Z.of_nat (length (w_h (rr_world t))) <= Z.max 0 me)%Z) /\
  match r with
  | Ret d => ok = true /\ d = res /\ map tag tr = order als ps runs /\
      forall a p, In a als -> In p ps -> exists da rs, dget (ae_name a) d = Some da /\ dget (pe_name p) da = Some rs /\
        length rs = runs /\ rs = values (filter (named (ae_name a) (pe_name p)) tr)
  | Raise e => (exists tr0 t, tr = tr0 ++ [t] /\ rr_out t = Raise e /\ NoRaise tr0) \/
               (ok = false /\ e = EType /\ map tag tr = order als ps runs)
  end.
Proof.
  intros me g fuel runs als ps ok res0 r res tr Hna Hnp H. unfold runner_run in H.
  destruct (runner_algs me g fuel runs als ps res0 []) as [[o res1] tr1] eqn:E.
  destruct (runner_algs_spec me g fuel als ps runs als res0 [] o res1 tr1) as (HF & new & Et & R); auto.
  { apply incl_refl. } { intros [|i] t Q; discriminate. } { constructor. }
  simpl in Et. subst tr1.
  assert (tr = new /\ res = res1) as [-> ->] by (destruct o; inversion H; auto).
  split.
  - intros i t Hi. pose proof (HF _ _ Hi) as F. split; auto.
    destruct F as (a & p & ev & _ & _ & _ & _ & Ex). cbv zeta in Ex.
    set (En := runner_env me g i p) in *.
    assert (T : tinv (e_cfg En) (tw_of (rr_world t))).
    { eapply run_tinv; eauto. }
    destruct T. simpl in *. unfold within in *. simpl in *. lia.
  - destruct o as [e|].
    + inversion H; subst. left. destruct R as (tr0 & t & R). eauto.
    + destruct R as (HN & M & G & _). destruct ok; inversion H; subst.
      * split; auto. split; auto. split; auto. intros a p Ha Hp.
        destruct (G a Ha) as (da & Q1 & Q2). destruct (Q2 p Hp) as (rs & Q3 & Q4 & Q5). exists da, rs. auto.
      * right. auto.
Qed.

(** ** C33: two differently configured instances of one class *)
(** two differential evolutions with populations of 4 and 5; the results of the first are lost *)
Definition de_entry (n : nat) : alg_entry :=
  AlgEntry "DifferentialEvolution" (fun C => de fx C (DEPar n (N' 1) (N' 1) Rand1)) (fun _ => None).
Definition sum_prob : prob_entry :=
  ProbEntry "Sum" 2 [N' (-5); N' (-5)] [N' 5; N' 5] (fun _ => ExDE.P).
Definition rng0 : rng_world := RngWorld (fun i p => N' (Z.of_nat (i + p mod 7) - 3)) (fun i p => i + 3 * p) (fun _ => 0).
Theorem C33_refuted : exists me g fuel als ps d tr, length als = 2 /\ length ps = 1 /\
  runner_run me g fuel 1 als ps true [] = (Ret d, d, tr) /\
  length tr = 2 /\ NoRaise tr /\ length d = 1 /\
  (* the value of the first run appears nowhere in the results *)
  exists t v, nth_error tr 0 = Some t /\ rr_out t = Ret v /\
    forall an da pn rs, In (an, da) d -> In (pn, rs) da -> ~ In v rs.
Proof.
  exists 6%Z, rng0, 9, [de_entry 4; de_entry 5], [sum_prob]. do 2 eexists. split; [reflexivity|]. split; [reflexivity|].
  split; [vm_compute; reflexivity|]. split; [reflexivity|]. split; [repeat constructor; eexists; reflexivity|].
  split; [reflexivity|]. do 2 eexists. split; [reflexivity|]. split; [reflexivity|].
  intros an da pn rs [H|[]] H2 H3. inversion H; subst. destruct H2 as [H2|[]]. inversion H2; subst.
  destruct H3 as [H3|[]]. inversion H3.
Qed.

(** ** C34 and C60: names *)
Local Open Scope string_scope.
Lemma dget_In : forall A k (d : list (string * A)) v, dget k d = Some v -> In (k, v) d.
Proof.
  induction d as [|[k' v'] d IH]; simpl; intros v H; [discriminate|].
  destruct (String.eqb k k') eqn:E; [|right; auto]. apply String.eqb_eq in E. inversion H; subst. auto.
Qed.
Lemma In_dget : forall A k (d : list (string * A)), In k (map fst d) -> exists v, dget k d = Some v.
Proof.
  induction d as [|[k' v'] d IH]; simpl; intros H; [destruct H|].
  destruct (String.eqb k k') eqn:E; eauto. destruct H as [->|H]; auto. rewrite String.eqb_refl in E. discriminate.
Qed.
(** the factories: a name is accepted exactly when it is a key (problems: after lowercasing) *)
Theorem C34_get_problem : forall s,
  (In (lower s) (map fst problem_table) -> exists c, get_problem s = Ret c /\ In (lower s, c) problem_table) /\
  (~ In (lower s) (map fst problem_table) -> get_problem s = Raise EKey).
Proof.
  intros s. unfold get_problem. split; intros H.
  - destruct (In_dget _ _ _ H) as (c & E). rewrite E. exists c. split; auto. apply dget_In; auto.
  - destruct (dget (lower s) problem_table) eqn:E; auto. exfalso. apply H. apply dget_In in E.
    apply (in_map fst) in E. auto.
Qed.
Theorem C34_get_algorithm : forall s,
  (In s algorithm_table -> get_algorithm s = Ret s) /\ (~ In s algorithm_table -> get_algorithm s = Raise EKey).
Proof.
  intros s. unfold get_algorithm. destruct (mem s algorithm_table) eqn:E; unfold mem in E.
  - apply existsb_exists in E. destruct E as (x & Hx & Q). apply String.eqb_eq in Q. subst. split; auto. contradiction.
  - split; auto. intros H. exfalso. assert (existsb (String.eqb s) algorithm_table = true); [|congruence].
    apply existsb_exists. exists s. split; auto. apply String.eqb_refl.
Qed.
(** not every choice is accepted: neither default is, nor are 14 of the 48 problem names *)
Theorem C34_cli_refuted : exists a p, a = cli_algorithm_default /\ p = cli_problem_default /\ In p problem_names /\
  get_algorithm a = Raise EKey /\ get_problem p = Raise EKey.
Proof. exists "jDE", "Problem". vm_compute. auto 10. Qed.
Definition rejected : list string :=
  filter (fun s => match get_problem s with Raise _ => true | Ret _ => false end) problem_names.
Theorem C34_rejected : rejected = ["Problem"; "ExpandedGriewankPlusRosenbrock"; "ModifiedSchwefel"; "HappyCat";
  "ChungReynolds"; "SchumerSteiglitz"; "SumSquares"; "StyblinskiTang"; "BentCigar"; "DixonPrice"; "CosineMixture";
  "ExpandedSchaffer"; "SchafferN2"; "SchafferN4"].
Proof. vm_compute. reflexivity. Qed.
(** the offered names that are accepted give the class of that name *)
Theorem C34_accepted_partial : forall s, In s problem_names -> ~ In s rejected -> get_problem s = Ret s.
Proof.
  intros s H Hr.
  assert (G : forallb (fun s => match get_problem s with Raise _ => true | Ret c => String.eqb c s end) problem_names = true)
    by (vm_compute; reflexivity).
  rewrite forallb_forall in G. specialize (G s H). destruct (get_problem s) eqn:E.
  - apply String.eqb_eq in G. congruence.
  - exfalso. apply Hr. apply filter_In. split; auto. rewrite E. auto.
Qed.
(** a key is its class name in lower case, with underscores between the words, apart from four keys;
    every class is exported, every exported problem class has a key, and no key or algorithm appears twice *)
Fixpoint no_underscore (s : string) : string :=
  match s with EmptyString => EmptyString | String c s' => if Ascii.eqb c "_" then no_underscore s' else String c (no_underscore s') end.
Fixpoint distinct (l : list string) : bool := match l with [] => true | s :: l' => negb (mem s l') && distinct l' end.
Theorem C34_keys :
  filter (fun a => negb (String.eqb (no_underscore (fst a)) (lower (snd a)))) problem_table =
    [("conditioned_elliptic", "Elliptic"); ("schaffer2", "SchafferN2"); ("schaffer4", "SchafferN4")] /\
  (forall k c, In (k, c) problem_table -> In c problem_names) /\
  (forall c, In c problem_names -> c <> "Problem" -> exists k, In (k, c) problem_table) /\
  distinct (map fst problem_table) = true /\ distinct problem_names = true /\ distinct algorithm_table = true /\
  (forall a, In a algorithm_table -> In a exported_algorithms).
Proof.
  assert (MI : forall s l, mem s l = true -> In s l).
  { intros s l H. apply existsb_exists in H. destruct H as (x & Hx & Q). apply String.eqb_eq in Q. subst; auto. }
  split; [vm_compute; reflexivity|]. split; [|split; [|split; [vm_compute; reflexivity|split; [vm_compute; reflexivity|split; [vm_compute; reflexivity|]]]]].
  - assert (G : forallb (fun a => mem (snd a) problem_names) problem_table = true) by (vm_compute; reflexivity).
    intros k c H. rewrite forallb_forall in G. apply MI. apply (G (k, c) H).
  - assert (G : forallb (fun c => mem c (map snd problem_table)) (tl problem_names) = true) by (vm_compute; reflexivity).
    intros c [<-|H] Hn; [contradiction|]. rewrite forallb_forall in G. specialize (G c H). apply MI in G. apply in_map_iff in G.
    destruct G as ([k c'] & E & HI). simpl in E. subst. eauto.
  - assert (G : forallb (fun a => mem a exported_algorithms) algorithm_table = true) by (vm_compute; reflexivity).
    intros a H. rewrite forallb_forall in G. apply MI. apply (G a H).
Qed.
(** "max" asks for maximization, everything else for minimization *)
Theorem C34_optimization_type : forall s, (s = "max" -> optimization_type s = Maximization) /\ (s <> "max" -> optimization_type s = Minimization).
Proof.
  intros s. unfold optimization_type. split; intros H.
  - subst. reflexivity.
  - apply String.eqb_neq in H. rewrite H. reflexivity.
Qed.
(** C60: exported algorithms the factory does not know *)
Definition unknown : list string := filter (fun s => negb (mem s algorithm_table)) exported_algorithms.
Theorem C60_refuted : exists s, In s exported_algorithms /\ get_algorithm s = Raise EKey.
Proof. exists "MShOA". split; [vm_compute; auto 100|vm_compute; auto]. Qed.
(** exactly these three *)
Theorem C60_partial : unknown = ["MantisSearchAlgorithm"; "MShOA"; "ImprovedLpsrSuccessHistoryAdaptiveDifferentialEvolution"] /\
  forall s, In s exported_algorithms -> ~ In s unknown -> get_algorithm s = Ret s.
Proof.
  split; [vm_compute; reflexivity|]. intros s H Hn. apply C34_get_algorithm.
  destruct (mem s algorithm_table) eqn:E.
  - unfold mem in E. apply existsb_exists in E. destruct E as (x & Hx & Q). apply String.eqb_eq in Q. subst; auto.
  - exfalso. apply Hn. apply filter_In. rewrite E. auto.
Qed.
Local Close Scope string_scope.

(** ** Concrete cases *)
Module ExInfra.
Example full_array_case : full_array (PSeq [Fin 1; Fin 2]) 5 = Ret [Fin 1; Fin 2; Fin 1; Fin 2; Fin 1].
Proof. reflexivity. Qed.
Example problem_case : problem_init 3 (PScalar (Fin 0)) (PSeq [Fin 7; Fin 8; Fin 9; Fin 10]) =
  Ret (ProblemObj 3 [Fin 0; Fin 0; Fin 0] [Fin 7; Fin 8; Fin 9]).
Proof. reflexivity. Qed.
(** a nested list; callback 2 raises *)
Example hook_case : call_hook (fun i _ _ => if i =? 2 then Some EKey else None) (HEvent BeforeRun)
   (CbList [CbLeaf 1; CbList [CbLeaf 5; CbLeaf 2]; CbLeaf 3]) [] =
  (Some EKey, [(1, HEvent BeforeRun); (5, HEvent BeforeRun); (2, HEvent BeforeRun)]).
Proof. reflexivity. Qed.
Example runner_names : NoDup (map ae_name [de_entry 4]) /\ NoDup (map pe_name [sum_prob]).
Proof. split; repeat constructor; simpl; intuition. Qed.
Example runner_case : exists d tr, runner_run 6 rng0 9 2 [de_entry 4] [sum_prob] true [] = (Ret d, d, tr) /\
  map tag tr = order [de_entry 4] [sum_prob] 2 /\ length tr = 2.
Proof. do 2 eexists. split; [vm_compute; reflexivity|]. split; reflexivity. Qed.
End ExInfra.

Print Assumptions C18_scalar. Print Assumptions C18_seq. Print Assumptions C18_raises. Print Assumptions C18_objects.
Print Assumptions C19_bounds. Print Assumptions C19_evaluate. Print Assumptions C31_hook. Print Assumptions C31_all_called.
Print Assumptions C31_history. Print Assumptions C31_hook_after. Print Assumptions C32_runner. Print Assumptions C33_refuted.
Print Assumptions C34_get_problem. Print Assumptions C34_get_algorithm. Print Assumptions C34_cli_refuted.
Print Assumptions C34_rejected. Print Assumptions C34_accepted_partial. Print Assumptions C60_refuted. Print Assumptions C60_partial.
Print Assumptions C34_keys. Print Assumptions C34_optimization_type.
